(** The schedule that a run of the simulator produces. *)
From Coq Require Import ZArith List Bool Lia Permutation.
From Verif Require Import Base SpecUni SpecQPA SpecGlobal SpecTardiness SpecSim ModelTasks ModelSim ProofGlobal ProofSim.
Import ListNotations.
Open Scope Z_scope.

Definition etask_of (t : task) : etask := ETask (t_cost t) (t_period t) (t_deadline t).

Section Run.
  Variables (ts : taskset) (pick : nat -> nat) (pre : bool) (m : nat).
  Hypothesis Hts : Forall (fun t => 1 <= t_cost t /\ 1 <= t_period t) ts.
  Hypothesis Hm : (1 <= m)%nat.
  Hypothesis Hne : ts <> [].

  Let C := sC ts.
  Let P := sP ts.
  Let n := length ts.
  Let inv := Inv ts pre m.

  Lemma next_event_min : forall r a e, In e (a :: r) -> next_event a r <= fst e.
  Proof.
    intros r a e He. unfold next_event.
    assert (G : forall (r : list (Z * option nat)) z, fold_left (fun t e => Z.min t (fst e)) r z <= z /\ forall e, In e r -> fold_left (fun t e => Z.min t (fst e)) r z <= fst e).
    { clear. induction r as [|b r IH]; intros z; cbn [fold_left]; [split; [lia|intros e []]|]. destruct (IH (Z.min z (fst b))) as [I1 I2]. split; [lia|].
      intros e [<-|He]; [lia|apply I2; exact He]. }
    destruct He as [He|He]; [rewrite <- He; apply (proj1 (G r (fst a)))|apply (proj2 (G r (fst a))); exact He].
  Qed.

  Lemma next_event_in : forall r a, exists e, In e (a :: r) /\ next_event a r = fst e.
  Proof.
    intros r. unfold next_event. induction r as [|b r IH] using rev_ind; intros a.
    - exists a. split; [left; reflexivity|reflexivity].
    - rewrite fold_left_app. cbn [fold_left]. destruct (IH a) as [e [H1 H2]]. rewrite H2. destruct (Z.min_spec (fst e) (fst b)) as [[_ E]|[_ E]].
      + exists e. split; [destruct H1 as [->|H1]; [left; reflexivity|right; apply in_or_app; left; exact H1]|exact E].
      + exists b. split; [right; apply in_or_app; right; left; reflexivity|exact E].
  Qed.

  Definition sim_step (st : simstate) : option (simstate * list completion) :=
    match events (qs st) with
    | [] => None
    | e :: r => advance_time pick pre ts st (next_event e r)
    end.

  (** the time of the next event *)
  Definition horizon (st : simstate) : Z := match events (qs st) with [] => now st | e :: r => next_event e r end.

  Lemma inv_events : forall st, inv st -> events (qs st) <> [].
  Proof.
    intros st [Hc Hs] E. assert (E0 : forall i, In i (seq 0 (length ts)) -> False).
    { intros i Hi. apply (Permutation_in _ (Permutation_sym (c_perm _ _ _ _ _ _ Hc))) in Hi. rewrite E in Hi.
      assert (Hr : forall i, ~ In i (somes (procs st))).
      { intros i' Hi'. destruct (c_dummy _ _ _ _ _ _ Hc i' Hi') as [e [He _]]. rewrite E in He. destruct He. }
      apply in_app_or in Hi. destruct Hi as [Hi|Hi]; [exact (Hr i Hi)|]. cbn in Hi. rewrite app_nil_r in Hi.
      pose proof (somes_full _ (s_busy _ _ _ _ _ Hs i Hi)) as L. rewrite (c_len _ _ _ _ _ _ Hc) in L.
      destruct (somes (procs st)) as [|x l]; [cbn in L; lia|]. apply (Hr x). left. reflexivity. }
    apply (E0 0%nat). apply in_seq. destruct ts; [contradiction|cbn; lia].
  Qed.

  Lemma step_ok : forall st, inv st ->
    exists st' log, sim_step st = Some (st', log) /\ inv st' /\ now st' = horizon st /\ now st < now st' /\
      (forall i, In i (somes (procs st)) -> al (qs st) i + (now st' - now st) <= C i) /\
      (forall i, jobs (qs st') i = if existsb (Nat.eqb i) (somes (procs st)) then ran ts (qs st) (now st' - now st) i else jobs (qs st) i) /\
      log = map (fun i => Completion (now st') i (sq (qs st) i) (dl ts (qs st) i)) (filter (fin ts (qs st) (now st' - now st)) (somes (procs st))) /\
      (forall e i, In (e, Some i) (events (qs st)) -> now st' <= e).
  Proof.
    intros st Hi. pose proof (inv_events st Hi) as Hev. destruct Hi as [Hc Hs]. unfold sim_step, horizon. destruct (events (qs st)) as [|e r] eqn:E; [contradiction|].
    destruct (next_event_in r e) as [e' [He' Ee']]. assert (Hlt : now st < next_event e r) by (rewrite Ee'; apply (s_ev _ _ _ _ _ Hs); rewrite E; exact He').
    assert (Hmin : forall x, In x (events (qs st)) -> next_event e r <= fst x) by (intros x Hx; rewrite E in Hx; apply next_event_min; exact Hx).
    destruct (step_inv ts pick pre Hts m Hm st (next_event e r) Hc (or_introl Hlt) Hmin) as [st' [log [S1 [S2 [S3 [S4 [S5 S6]]]]]]].
    exists st', log. rewrite S3. split; [exact S1|]. split; [exact S2|]. split; [reflexivity|]. split; [exact Hlt|]. split; [exact S4|]. split; [exact S5|]. split; [exact S6|].
    intros x i Hx. rewrite <- E in Hx. apply (Hmin (x, Some i) Hx).
  Qed.

  (** ** The first step *)
  Definition start : simstate :=
    Sim 0 (repeat None m) (fold_left (add_release 0) (seq 0 (length ts)) (Queues [] [] (fun _ => new_job))) 0.

  Lemma start_queues : forall l q, (forall i, rl q i = 0) ->
    fold_left (add_release 0) l q = Queues (pending q) (events q ++ map (fun i => (0, Some i)) l) (jobs q).
  Proof.
    induction l as [|i l IH]; intros q Hq; cbn [fold_left map].
    - rewrite app_nil_r. destruct q; reflexivity.
    - unfold add_release at 2. unfold rl in Hq. rewrite (Hq i). cbn [Z.leb Z.compare]. rewrite IH by exact Hq. cbn [pending events jobs]. rewrite <- app_assoc. reflexivity.
  Qed.

  Lemma start_core : core ts pre m 0 (procs start) (qs start) /\ somes (procs start) = [] /\ (forall i, jobs (qs start) i = new_job) /\
    (forall e, In e (events (qs start)) -> 0 <= fst e) /\ horizon start = 0.
  Proof.
    assert (Es : somes (repeat None m) = []) by (clear; induction m as [|k IH]; [reflexivity|exact IH]).
    unfold start. cbn [procs qs]. rewrite start_queues by reflexivity. cbn [pending events jobs app].
    assert (Ew : waiting (map (fun i => (0, Some i)) (seq 0 (length ts))) = seq 0 (length ts)).
    { unfold waiting. rewrite map_map. cbn [snd]. rewrite (somes_some _ (fun i => i)). apply map_id. }
    assert (Hev : forall e, In e (map (fun i => (0, Some i)) (seq 0 (length ts))) -> exists i, e = (0, Some i)).
    { intros e He. apply in_map_iff in He. destruct He as [i [<- _]]. exists i. reflexivity. }
    split; [|split; [exact Es|split; [reflexivity|split]]].
    - constructor; cbn [pending events jobs].
      + apply repeat_length.
      + rewrite Es, Ew. reflexivity.
      + rewrite Es. intros i [[]|[]].
      + intros e i He. destruct (Hev _ He) as [i' E]. inversion E; subst. split; reflexivity.
      + intros e He. destruct (Hev _ He) as [i' ->]. cbn. lia.
      + rewrite Es. intros i [].
      + intros _ i [].
    - intros e He. destruct (Hev _ He) as [i' ->]. cbn. lia.
    - unfold horizon. cbn [qs events now]. destruct ts as [|t l] eqn:E; [contradiction|]. cbn [length seq map].
      destruct (next_event_in (map (fun i => (0, Some i)) (seq 1 (length l))) (0, Some 0%nat)) as [e [He Ee]]. rewrite Ee. destruct (Hev e) as [i ->]; [|reflexivity].
      cbn [length seq map]. exact He.
  Qed.

  Lemma first_step : exists st, sim_step start = Some (st, []) /\ inv st /\ now st = 0 /\ forall i, jobs (qs st) i = new_job.
  Proof.
    destruct start_core as [Hc [Es [Ej [He Eh]]]]. unfold sim_step. unfold horizon in Eh.
    destruct (events (qs start)) as [|e r] eqn:E.
    { exfalso. pose proof (Permutation_length (c_perm _ _ _ _ _ _ Hc)) as L. rewrite Es, E, seq_length in L. unfold start in L. cbn [qs] in L.
      rewrite start_queues in L by reflexivity. cbn in L. destruct ts; [contradiction|cbn in L; lia]. }
    rewrite Eh. destruct (step_inv ts pick pre Hts m Hm start 0 Hc) as [st' [log [S1 [S2 [S3 [S4 [S5 S6]]]]]]].
    - right. split; [cbn; lia|exact Es].
    - rewrite E. exact He.
    - rewrite Es in S5, S6. cbn in S6. subst log. exists st'. split; [exact S1|]. split; [exact S2|]. split; [exact S3|]. intros i. rewrite S5. cbn [existsb]. apply Ej.
  Qed.

  Definition first : simstate := match sim_step start with Some (st, _) => st | None => start end.

  Definition next (st : simstate) : simstate := match sim_step st with Some (st', _) => st' | None => st end.
  Fixpoint run (k : nat) : simstate := match k with O => first | S k' => next (run k') end.
  Definition steplog (k : nat) : list completion := match sim_step (run k) with Some (_, l) => l | None => [] end.
  Definition tm (k : nat) : Z := now (run k).

  Lemma first_ok : inv first /\ now first = 0 /\ forall i, jobs (qs first) i = new_job.
  Proof. destruct first_step as [st [E H]]. unfold first. rewrite E. exact H. Qed.

  Lemma run_inv : forall k, inv (run k).
  Proof.
    induction k as [|k IH]; [apply first_ok|]. cbn [run]. unfold next. destruct (step_ok _ IH) as [st' [log [E [H _]]]]. rewrite E. exact H.
  Qed.

  Lemma run_step : forall k, sim_step (run k) = Some (run (S k), steplog k) /\ tm (S k) = horizon (run k) /\ tm k < tm (S k) /\
      (forall i, In i (somes (procs (run k))) -> al (qs (run k)) i + (tm (S k) - tm k) <= C i) /\
      (forall i, jobs (qs (run (S k))) i = if existsb (Nat.eqb i) (somes (procs (run k))) then ran ts (qs (run k)) (tm (S k) - tm k) i else jobs (qs (run k)) i) /\
      steplog k = map (fun i => Completion (tm (S k)) i (sq (qs (run k)) i) (dl ts (qs (run k)) i)) (filter (fin ts (qs (run k)) (tm (S k) - tm k)) (somes (procs (run k)))) /\
      (forall e i, In (e, Some i) (events (qs (run k))) -> tm (S k) <= e).
  Proof.
    intros k. destruct (step_ok _ (run_inv k)) as [st' [log [E [H1 [H2 [H3 [H4 [H5 [H6 H7]]]]]]]]].
    assert (E1 : run (S k) = st') by (cbn [run]; unfold next; rewrite E; reflexivity). assert (E2 : steplog k = log) by (unfold steplog; rewrite E; reflexivity).
    unfold tm. rewrite E1, E2. repeat split; assumption.
  Qed.

  Lemma tm_mono : forall a b, (a < b)%nat -> tm a < tm b.
  Proof. intros a b H. induction H as [|b H IH]; [apply run_step|]. destruct (run_step b) as [_ [_ [G _]]]. lia. Qed.

  Lemma tm_zero : tm 0 = 0. Proof. apply first_ok. Qed.
  Lemma tm_nonneg : forall k, 0 <= tm k.
  Proof. intros [|k]; [rewrite tm_zero; lia|]. pose proof (tm_mono 0 (S k) ltac:(lia)). rewrite tm_zero in *. lia. Qed.
  Lemma tm_ge : forall k, Z.of_nat k <= tm k.
  Proof. induction k as [|k IH]; [rewrite tm_zero; lia|]. pose proof (tm_mono k (S k) ltac:(lia)). lia. Qed.

  (** the step that determines slot t *)
  Fixpoint idx (t : nat) : nat := match t with O => O | S t' => if tm (S (idx t')) <=? Z.of_nat t then S (idx t') else idx t' end.

  Lemma idx_spec : forall t, tm (idx t) <= Z.of_nat t < tm (S (idx t)).
  Proof.
    induction t as [|t IH]; [cbn [idx]; pose proof (tm_mono 0 1 ltac:(lia)); rewrite tm_zero in *; cbn; lia|]. cbn [idx].
    destruct (tm (S (idx t)) <=? Z.of_nat (S t)) eqn:E.
    - apply Z.leb_le in E. pose proof (tm_mono (S (idx t)) (S (S (idx t))) ltac:(lia)). lia.
    - apply Z.leb_gt in E. lia.
  Qed.

  Lemma idx_seg : forall k t, tm k <= Z.of_nat t < tm (S k) -> idx t = k.
  Proof.
    intros k t H. pose proof (idx_spec t) as G. destruct (Nat.lt_trichotomy (idx t) k) as [L|[L|L]]; [|exact L|].
    - destruct (Nat.eq_dec (S (idx t)) k) as [E|N]; [rewrite E in G; lia|]. pose proof (tm_mono (S (idx t)) k ltac:(lia)). lia.
    - destruct (Nat.eq_dec (S k) (idx t)) as [E|N]; [rewrite E in H; lia|]. pose proof (tm_mono (S k) (idx t) ltac:(lia)). lia.
  Qed.

  Definition running (st : simstate) : list job := map (fun i => (i, pred (sq (qs st) i))) (somes (procs st)).
  Definition sc : gschedule := fun t => running (run (idx t)).

  Lemma in_running : forall st i k, In (i, k) (running st) <-> In i (somes (procs st)) /\ k = pred (sq (qs st) i).
  Proof.
    intros st i k. unfold running. rewrite in_map_iff. split.
    - intros [x [E H]]. inversion E; subst. split; [exact H|reflexivity].
    - intros [H ->]. exists i. split; [reflexivity|exact H].
  Qed.

  Lemma sc_seg : forall k t, tm k <= Z.of_nat t < tm (S k) -> sc t = running (run k).
  Proof. intros k t H. unfold sc. rewrite (idx_seg k t H). reflexivity. Qed.

  Definition tn (k : nat) : nat := Z.to_nat (tm k).
  Lemma tn_z : forall k, Z.of_nat (tn k) = tm k.
  Proof. intros k. unfold tn. apply Z2Nat.id. apply tm_nonneg. Qed.

  (** service within a segment *)
  Lemma seg_service : forall k j d, tm k + Z.of_nat d <= tm (S k) ->
    gservice sc j (tn k + d) = gservice sc j (tn k) + (if existsb (job_eqb j) (running (run k)) then Z.of_nat d else 0).
  Proof.
    intros k j d. induction d as [|d IH]; intros Hd.
    - rewrite Nat.add_0_r. destruct (existsb _ _); cbn; lia.
    - replace (tn k + S d)%nat with (S (tn k + d)) by lia. rewrite gservice_step, IH by lia. unfold gruns.
      rewrite (sc_seg k) by (rewrite Nat2Z.inj_add, tn_z; lia). destruct (existsb _ _); cbn [b2z]; lia.
  Qed.

  Lemma running_b : forall st i k, existsb (job_eqb (i, k)) (running st) = existsb (Nat.eqb i) (somes (procs st)) && Nat.eqb k (pred (sq (qs st) i)).
  Proof.
    intros st i k. unfold running. induction (somes (procs st)) as [|x l IH]; [reflexivity|]. cbn [map existsb]. rewrite IH. unfold job_eqb. cbn [fst snd].
    destruct (Nat.eqb_spec i x) as [->|N]; cbn [andb orb]; [|reflexivity]. destruct (Nat.eqb k (pred (sq (qs st) x))); cbn [orb]; [rewrite ?orb_true_r; reflexivity|].
    rewrite andb_false_r. reflexivity.
  Qed.

  Lemma mem_b : forall i l, existsb (Nat.eqb i) l = true <-> In i l.
  Proof.
    intros i l. rewrite existsb_exists. split; [intros [x [H E]]; apply Nat.eqb_eq in E; subst; exact H|]. intros H. exists i. split; [exact H|apply Nat.eqb_refl].
  Qed.

  (** ** Service at the steps *)
  Lemma service_inv : forall k i, (1 <= sq (qs (run k)) i)%nat /\ rl (qs (run k)) i = Z.of_nat (pred (sq (qs (run k)) i)) * P i /\
    (forall k', gservice sc (i, k') (tn k) = if (k' <? pred (sq (qs (run k)) i))%nat then C i else if Nat.eqb k' (pred (sq (qs (run k)) i)) then al (qs (run k)) i else 0).
  Proof.
    induction k as [|k IH]; intros i.
    - destruct first_ok as [_ [E0 Ej]]. cbn [run]. unfold sq, rl, al. rewrite Ej. cbn [new_job j_seqno j_release j_alloc pred]. split; [lia|]. split; [lia|].
      intros k'. unfold tn, tm. cbn [run]. rewrite E0. cbn [Z.to_nat]. destruct (Nat.ltb_spec k' 0); [lia|]. destruct (Nat.eqb k' 0); reflexivity.
    - destruct (IH i) as [I1 [I2 I3]]. destruct (run_step k) as [_ [_ [Hlt [Hlim [Hj _]]]]].
      set (q := qs (run k)) in *. set (q' := qs (run (S k))) in *. set (d := tm (S k) - tm k) in *.
      assert (Ed : tn (S k) = (tn k + Z.to_nat d)%nat).
      { apply Nat2Z.inj. rewrite Nat2Z.inj_add, !tn_z, Z2Nat.id by (unfold d; lia). unfold d. lia. }
      assert (Es : forall k', gservice sc (i, k') (tn (S k)) = gservice sc (i, k') (tn k) + (if existsb (Nat.eqb i) (somes (procs (run k))) && Nat.eqb k' (pred (sq q i)) then d else 0)).
      { intros k'. rewrite Ed, seg_service by (rewrite Z2Nat.id by (unfold d; lia); unfold d; lia). rewrite running_b. fold q. rewrite Z2Nat.id by (unfold d; lia). reflexivity. }
      specialize (Hj i). destruct (existsb (Nat.eqb i) (somes (procs (run k)))) eqn:Er; cbn [andb] in Es.
      + apply mem_b in Er. specialize (Hlim i Er). unfold ran in Hj. destruct (fin ts q d i) eqn:Ef.
        * unfold sq, rl, al. rewrite Hj. cbn [init_next increase_allocation j_seqno j_release j_alloc pred]. fold (sq q i) (rl q i).
          split; [lia|]. split; [rewrite I2; unfold P, sP; replace (Z.of_nat (sq q i)) with (Z.of_nat (pred (sq q i)) + 1) by lia; ring|].
          intros k'. rewrite Es, I3. unfold fin in Ef. apply Z.leb_le in Ef. fold C in Ef. fold d in Hlim.
          destruct (Nat.ltb_spec k' (pred (sq q i))); destruct (Nat.eqb_spec k' (pred (sq q i))); destruct (Nat.ltb_spec k' (sq q i)); destruct (Nat.eqb_spec k' (sq q i)); try lia.
        * unfold sq, rl, al. rewrite Hj. cbn [increase_allocation j_seqno j_release j_alloc]. fold (sq q i) (rl q i) (al q i). split; [exact I1|]. split; [exact I2|].
          intros k'. rewrite Es, I3. destruct (Nat.ltb_spec k' (pred (sq q i))); destruct (Nat.eqb_spec k' (pred (sq q i))); lia.
      + unfold sq, rl, al. rewrite Hj. fold (sq q i) (rl q i) (al q i). split; [exact I1|]. split; [exact I2|]. intros k'. rewrite Es, I3. lia.
  Qed.

  (** service in the middle of a segment *)
  Lemma service_at : forall t i k', let st := run (idx t) in let a := pred (sq (qs st) i) in
    gservice sc (i, k') t = if (k' <? a)%nat then C i else if Nat.eqb k' a then al (qs st) i + (if existsb (Nat.eqb i) (somes (procs st)) then Z.of_nat t - tm (idx t) else 0) else 0.
  Proof.
    intros t i k' st a. pose proof (idx_spec t) as Hx. set (k := idx t) in *.
    assert (Et : t = (tn k + Z.to_nat (Z.of_nat t - tm k))%nat) by (apply Nat2Z.inj; rewrite Nat2Z.inj_add, tn_z, Z2Nat.id; lia).
    rewrite Et at 1. rewrite seg_service by (rewrite Z2Nat.id; lia). rewrite running_b, Z2Nat.id by lia. fold st. fold a.
    destruct (service_inv k i) as [I1 [I2 I3]]. rewrite I3. fold st. fold a.
    destruct (Nat.ltb_spec k' a); destruct (Nat.eqb_spec k' a); destruct (existsb (Nat.eqb i) (somes (procs st))); cbn [andb]; lia.
  Qed.

  Let es := map etask_of ts.
  Let s := sync_periodic es.

  Lemma es_nth : forall i, (i < n)%nat -> nth i es (ETask 0 1 0) = etask_of (sim_task ts i).
  Proof.
    intros i Hi. unfold es, sim_task. rewrite (nth_indep _ _ (etask_of (Task 1 1 1))) by (rewrite map_length; exact Hi). apply map_nth.
  Qed.

  Lemma s_cst : forall i k, (i < n)%nat -> Z.of_nat (cst s i k) = C i.
  Proof.
    intros i k Hi. unfold s, sync_periodic. cbn [cst]. rewrite es_nth by exact Hi. cbn [etask_of e_cost]. pose proof (sim_pos ts Hts i). unfold C, sC in *. rewrite Z2Nat.id; lia.
  Qed.
  Lemma s_arr : forall i k, (i < n)%nat -> Z.of_nat (arr s i k) = Z.of_nat k * P i /\ rel s i k = arr s i k.
  Proof.
    intros i k Hi. unfold s, sync_periodic. cbn [arr rel]. rewrite es_nth by exact Hi. cbn [etask_of e_period]. pose proof (sim_pos ts Hts i). unfold P, sP in *.
    rewrite Nat2Z.inj_mul, Z2Nat.id by lia. split; reflexivity.
  Qed.
  Lemma s_due : forall i k, (i < n)%nat -> due es s (i, k) = Z.of_nat k * P i + t_deadline (sim_task ts i).
  Proof. intros i k Hi. unfold due. cbn [fst snd]. rewrite (proj1 (s_arr i k Hi)), es_nth by exact Hi. reflexivity. Qed.

  Lemma task_in : forall k i, In i (somes (procs (run k))) \/ In i (pending (qs (run k))) -> (i < n)%nat.
  Proof.
    intros k i Hi. destruct (run_inv k) as [Hc _].
    assert (G : In i (seq 0 (length ts))).
    { apply (Permutation_in _ (c_perm _ _ _ _ _ _ Hc)). rewrite !in_app_iff. destruct Hi as [Hi|Hi]; [left; exact Hi|right; left; exact Hi]. }
    apply in_seq in G. unfold n. lia.
  Qed.

  Lemma dl_due : forall k i, (i < n)%nat -> dl ts (qs (run k)) i = due es s (i, pred (sq (qs (run k)) i)).
  Proof.
    intros k i Hi. rewrite s_due by exact Hi. destruct (service_inv k i) as [_ [E _]]. unfold dl, job_deadline. fold (rl (qs (run k)) i). rewrite E. reflexivity.
  Qed.

  (** ready jobs are the current jobs of their tasks *)
  Lemma ready_current : forall t i k', (i < n)%nat -> gready s sc (i, k') t ->
    let st := run (idx t) in k' = pred (sq (qs st) i) /\ (In i (somes (procs st)) \/ In i (pending (qs st))).
  Proof.
    intros t i k' Hi [R1 [R2 R3]] st. cbn [fst snd] in *. rewrite (s_cst i k' Hi) in R2. pose proof (service_at t i) as Sv. fold st in Sv. cbv zeta in Sv.
    set (a := pred (sq (qs st) i)) in *. pose proof (idx_spec t) as Hx. destruct (run_inv (idx t)) as [Hc Hs]. fold st in Hc, Hs.
    destruct (run_step (idx t)) as [_ [_ [Hlt [Hlim [_ [_ Hwait]]]]]]. fold st in Hlim, Hwait.
    assert (Hcur : gservice sc (i, a) t < C i).
    { rewrite Sv, Nat.ltb_irrefl, Nat.eqb_refl. destruct (existsb (Nat.eqb i) (somes (procs st))) eqn:Er.
      - apply mem_b in Er. specialize (Hlim i Er). lia.
      - destruct (in_dec Nat.eq_dec i (pending (qs st))) as [Hp|Hp]; [pose proof (proj2 (c_run _ _ _ _ _ _ Hc i (or_intror Hp))); fold C in H; lia|].
        destruct (in_dec Nat.eq_dec i (somes (procs st))) as [Hq|Hq]; [pose proof (proj2 (c_run _ _ _ _ _ _ Hc i (or_introl Hq))); fold C in H; lia|].
        assert (G : In i (waiting (events (qs st)))).
        { assert (G : In i (seq 0 (length ts))) by (apply in_seq; unfold n in Hi; lia). apply (Permutation_in _ (Permutation_sym (c_perm _ _ _ _ _ _ Hc))) in G.
          rewrite !in_app_iff in G. destruct G as [G|[G|G]]; [contradiction|contradiction|exact G]. }
        apply waiting_in in G. destruct G as [e He]. destruct (c_wait _ _ _ _ _ _ Hc e i He) as [_ E0]. rewrite E0. pose proof (sim_pos ts Hts i). unfold C. lia. }
    assert (Ek : k' = a).
    { destruct (Nat.lt_trichotomy k' a) as [L|[L|L]]; [|exact L|].
      - rewrite Sv in R2. destruct (Nat.ltb_spec k' a); lia.
      - specialize (R3 a L). unfold gcompleted in R3. cbn [fst snd] in R3. rewrite (s_cst i a Hi) in R3. lia. }
    split; [exact Ek|]. subst k'.
    assert (G : In i (seq 0 (length ts))) by (apply in_seq; unfold n in Hi; lia). apply (Permutation_in _ (Permutation_sym (c_perm _ _ _ _ _ _ Hc))) in G.
    rewrite !in_app_iff in G. destruct G as [G|[G|G]]; [left; exact G|right; exact G|]. exfalso.
    apply waiting_in in G. destruct G as [e He]. destruct (c_wait _ _ _ _ _ _ Hc e i He) as [Ee _]. specialize (Hwait e i He).
    destruct (service_inv (idx t) i) as [_ [Er _]]. fold st in Er. fold a in Er. destruct (s_arr i a Hi) as [A1 A2]. rewrite A2 in R1.
    rewrite Ee, Er, <- A1 in Hwait. lia.
  Qed.

  Lemma run_nodup : forall k, NoDup (somes (procs (run k))).
  Proof. intros k. destruct (run_inv k) as [Hc _]. apply (core_disj _ _ _ _ _ _ Hc). Qed.

  Lemma sc_valid : gvalid n m s sc.
  Proof.
    intros t. unfold sc. set (st := run (idx t)). destruct (run_inv (idx t)) as [Hc Hs]. fold st in Hc, Hs. split; [|split].
    - unfold running. rewrite map_length. pose proof (somes_len (procs st)). rewrite (c_len _ _ _ _ _ _ Hc) in H. exact H.
    - unfold running. pose proof (run_nodup (idx t)) as N. fold st in N. induction N as [|x l Hx N IH]; [constructor|]. cbn [map]. constructor; [|exact IH].
      intros G. apply in_map_iff in G. destruct G as [y [E Hy]]. inversion E; subst. contradiction.
    - intros [i k'] Hj. apply in_running in Hj. destruct Hj as [Hi Hk]. pose proof (task_in (idx t) i (or_introl Hi)) as Hin. cbn [fst]. split; [exact Hin|].
      pose proof (idx_spec t) as Hx. destruct (run_step (idx t)) as [_ [_ [Hlt [Hlim _]]]]. fold st in Hlim. specialize (Hlim i Hi).
      destruct (service_inv (idx t) i) as [I1 [I2 I3]]. fold st in I1, I2, I3. destruct (c_run _ _ _ _ _ _ Hc i (or_introl Hi)) as [G1 G2]. fold (tm (idx t)) in G1.
      unfold gready. cbn [fst snd]. split; [|split].
      + destruct (s_arr i k' Hin) as [A1 A2]. rewrite A2. rewrite <- Hk in I2. unfold P in *. change (now st) with (tm (idx t)) in G1. lia.
      + rewrite (s_cst i k' Hin), service_at. cbv zeta. fold st. rewrite <- Hk, Nat.ltb_irrefl, Nat.eqb_refl. rewrite (proj2 (mem_b i _) Hi). lia.
      + intros k0 Hk0. unfold gcompleted. cbn [fst snd]. rewrite (s_cst i k0 Hin), service_at. cbv zeta. fold st. rewrite <- Hk. destruct (Nat.ltb_spec k0 k'); lia.
  Qed.

  Lemma sc_gedf : pre = true -> gedf es m s sc.
  Proof.
    intros Hp t [i k'] Hi Hr Hn. unfold es in Hi. rewrite map_length in Hi. cbn [fst] in Hi. fold n in Hi.
    destruct (ready_current t i k' Hi Hr) as [Ek Hst]. set (st := run (idx t)) in *. destruct (run_inv (idx t)) as [Hc Hs]. fold st in Hc, Hs.
    destruct Hst as [Hst|Hst].
    { exfalso. apply Hn. unfold sc. fold st. apply in_running. split; assumption. }
    unfold sc. fold st. split.
    - unfold running. rewrite map_length, (somes_full _ (s_busy _ _ _ _ _ Hs i Hst)). exact (c_len _ _ _ _ _ _ Hc).
    - intros [r kr] Hr'. apply in_running in Hr'. destruct Hr' as [Hr1 Hr2]. pose proof (s_prio _ _ _ _ _ Hs r i Hr1 Hst (or_introl Hp)) as G.
      unfold st in G. rewrite !dl_due in G by (try exact Hi; apply (task_in (idx t) r); left; exact Hr1). fold st in G. rewrite <- Ek, <- Hr2 in G. exact G.
  Qed.

  Lemma pps_nth : forall i, (i < n)%nat -> nth i (map e_deadline es) 0 = t_deadline (sim_task ts i).
  Proof.
    intros i Hi. rewrite (nth_indep _ 0 (e_deadline (ETask 0 1 0))) by (unfold es; rewrite !map_length; exact Hi). rewrite map_nth, es_nth by exact Hi. reflexivity.
  Qed.

  Lemma prio_due : forall i k, (i < n)%nat -> prio_point (map e_deadline es) s (i, k) = due es s (i, k).
  Proof. intros i k Hi. unfold prio_point. cbn [fst snd]. rewrite pps_nth, s_due by exact Hi. rewrite (proj1 (s_arr i k Hi)). reflexivity. Qed.

  Lemma sc_np : pre = false -> np_gel (map e_deadline es) n m s sc.
  Proof.
    intros Hp t [i k'] Hi. cbn [fst snd] in *. set (st := run (idx t)). destruct (run_inv (idx t)) as [Hc Hs]. fold st in Hc, Hs. split.
    - intros H1 H2. rewrite (s_cst i k' Hi) in H2. rewrite service_at in H1, H2. cbv zeta in H1, H2. fold st in H1, H2.
      destruct (Nat.ltb_spec k' (pred (sq (qs st) i))); [lia|]. destruct (Nat.eqb_spec k' (pred (sq (qs st) i))) as [Ek|]; [|lia].
      destruct (existsb (Nat.eqb i) (somes (procs st))) eqn:Er.
      + apply mem_b in Er. unfold sc. fold st. apply in_running. split; assumption.
      + exfalso. assert (G : In i (seq 0 (length ts))) by (apply in_seq; unfold n in Hi; lia). apply (Permutation_in _ (Permutation_sym (c_perm _ _ _ _ _ _ Hc))) in G.
        rewrite !in_app_iff in G. destruct G as [G|[G|G]].
        * apply mem_b in G. congruence.
        * pose proof (c_np _ _ _ _ _ _ Hc Hp i G). lia.
        * apply waiting_in in G. destruct G as [e He]. destruct (c_wait _ _ _ _ _ _ Hc e i He) as [_ E0]. lia.
    - intros Hr Hn. destruct (ready_current t i k' Hi Hr) as [Ek Hst]. fold st in Ek, Hst. destruct Hst as [Hst|Hst].
      { exfalso. apply Hn. unfold sc. fold st. apply in_running. split; assumption. }
      unfold sc. fold st. split.
      + unfold running. rewrite map_length, (somes_full _ (s_busy _ _ _ _ _ Hs i Hst)). exact (c_len _ _ _ _ _ _ Hc).
      + intros [r kr] Hr' H0. apply in_running in Hr'. destruct Hr' as [Hr1 Hr2]. pose proof (task_in (idx t) r (or_introl Hr1)) as Hrn.
        rewrite service_at in H0. cbv zeta in H0. fold st in H0. rewrite Hr2, Nat.ltb_irrefl, Nat.eqb_refl, (proj2 (mem_b r _) Hr1) in H0.
        destruct (c_run _ _ _ _ _ _ Hc r (or_introl Hr1)) as [_ [Ha _]]. pose proof (idx_spec t) as Hx.
        assert (H00 : al (qs st) r = 0) by lia.
        pose proof (s_prio _ _ _ _ _ Hs r i Hr1 Hst (or_intror H00)) as G. unfold st in G. rewrite !dl_due in G by assumption. fold st in G.
        rewrite <- Ek, <- Hr2 in G. rewrite !prio_due by assumption. exact G.
  Qed.

  Lemma sc_edf : global_edf pre es m s sc.
  Proof.
    unfold global_edf. unfold es. rewrite map_length. fold es. fold n. split; [exact sc_valid|]. assert (G1 := sc_gedf). assert (G2 := sc_np). revert G1 G2. generalize sc. clear. intros g G1 G2. destruct pre; [apply G1; reflexivity|apply G2; reflexivity].
  Qed.

  (** ** The completions *)
  Definition jobof (c : completion) : job * nat := ((c_task c, pred (c_seqno c)), Z.to_nat (c_time c)).
  Definition joblog (k : nat) : list (job * nat) := map jobof (steplog k).

  Lemma joblog_iff : forall k j t, In (j, t) (joblog k) <-> (fst j < n)%nat /\ finishes_at s sc j t /\ (tn k < t <= tn (S k))%nat.
  Proof.
    intros k [i k'] t. unfold joblog. destruct (run_step k) as [_ [_ [Hlt [Hlim [_ [El _]]]]]]. rewrite El, map_map. cbn [fst].
    assert (Htn : (tn k < tn (S k))%nat) by (apply Nat2Z.inj_lt; rewrite !tn_z; exact Hlt).
    set (d := tm (S k) - tm k) in *. set (st := run k) in *.
    assert (Hseg : forall t', (tn k <= t')%nat -> (t' < tn (S k))%nat -> idx t' = k).
    { intros t' H1 H2. apply idx_seg. rewrite <- !tn_z. lia. }
    split.
    - intros H. apply in_map_iff in H. destruct H as [x [E Hx]]. unfold jobof in E. cbn [c_task c_seqno c_time] in E. inversion E; subst i k' t. clear E.
      apply filter_In in Hx. destruct Hx as [Hx Hf]. unfold fin in Hf. apply Z.leb_le in Hf. fold C in Hf. specialize (Hlim x Hx). pose proof (task_in k x (or_introl Hx)) as Hn.
      change (Z.to_nat (tm (S k))) with (tn (S k)). split; [exact Hn|]. split; [|lia].
      assert (E1 : gservice sc (x, pred (sq (qs st) x)) (tn (S k)) = C x).
      { assert (Ed : tn (S k) = (tn k + Z.to_nat d)%nat) by (apply Nat2Z.inj; rewrite Nat2Z.inj_add, !tn_z, Z2Nat.id by (unfold d; lia); unfold d; lia).
        rewrite Ed, seg_service by (rewrite Z2Nat.id by (unfold d; lia); unfold d; lia). rewrite running_b. fold st. rewrite (proj2 (mem_b x _) Hx), Nat.eqb_refl. cbn [andb].
        destruct (service_inv k x) as [_ [_ I3]]. fold st in I3. rewrite I3, Nat.ltb_irrefl, Nat.eqb_refl, Z2Nat.id by (unfold d; lia). lia. }
      split; unfold gcompleted; cbn [fst snd]; rewrite (s_cst x _ Hn); [lia|]. intros t' Ht'.
      assert (Hm' : gservice sc (x, pred (sq (qs st) x)) t' <= gservice sc (x, pred (sq (qs st) x)) (pred (tn (S k)))) by (apply gservice_mono; lia).
      rewrite (service_at (pred (tn (S k)))) in Hm'. cbv zeta in Hm'. rewrite (Hseg (pred (tn (S k)))) in Hm' by lia. fold st in Hm'.
      rewrite Nat.ltb_irrefl, Nat.eqb_refl, (proj2 (mem_b x _) Hx) in Hm'. pose proof (tn_z (S k)). unfold d in *. lia.
    - intros [Hi [[F1 F2] Ht]]. unfold gcompleted in F1, F2. cbn [fst snd] in F1, F2. rewrite (s_cst i k' Hi) in F1, F2.
      assert (F2' : gservice sc (i, k') (pred t) < C i) by (specialize (F2 (pred t) ltac:(lia)); lia).
      rewrite service_at in F2'. cbv zeta in F2'. rewrite (Hseg (pred t)) in F2' by lia. fold st in F2'.
      assert (F1' : gservice sc (i, k') t = gservice sc (i, k') (pred t) + b2z (gruns sc (i, k') (pred t))).
      { replace t with (S (pred t)) at 1 by lia. apply gservice_step. }
      assert (Eg : gruns sc (i, k') (pred t) = existsb (job_eqb (i, k')) (running st)) by (unfold gruns, sc; rewrite (Hseg (pred t)) by lia; reflexivity).
      assert (Hrun : existsb (Nat.eqb i) (somes (procs st)) && Nat.eqb k' (pred (sq (qs st) i)) = true).
      { rewrite <- running_b. rewrite Eg in F1'.
        destruct (existsb (job_eqb (i, k')) (running st)); [reflexivity|]. cbn [b2z] in F1'. exfalso.
        specialize (F2 (pred t) ltac:(lia)). lia. }
      apply andb_true_iff in Hrun. destruct Hrun as [Hr1 Hr2]. apply mem_b in Hr1. apply Nat.eqb_eq in Hr2. specialize (Hlim i Hr1).
      assert (Hin : In (i, k') (running st)) by (apply in_running; split; assumption).
      assert (Sv : gservice sc (i, k') t = al (qs st) i + (Z.of_nat t - tm k)).
      { assert (Eb : existsb (job_eqb (i, k')) (running st) = true) by (rewrite running_b, (proj2 (mem_b i _) Hr1); cbn [andb]; apply Nat.eqb_eq; exact Hr2).
        rewrite F1', Eg, Eb, service_at. cbv zeta. rewrite (Hseg (pred t)) by lia. fold st. rewrite Hr2, Nat.ltb_irrefl, Nat.eqb_refl, (proj2 (mem_b i _) Hr1). cbn [b2z]. lia. }
      pose proof (tn_z (S k)) as Tz. assert (Et : t = tn (S k)) by (unfold d in *; lia).
      apply in_map_iff. exists i. split.
      + unfold jobof. cbn [c_task c_seqno c_time]. change (Z.to_nat (tm (S k))) with (tn (S k)). fold st. rewrite Hr2, Et. reflexivity.
      + apply filter_In. split; [exact Hr1|]. unfold fin. apply Z.leb_le. fold C. fold st. unfold d in *. rewrite <- Tz, <- Et. lia.
  Qed.

  Definition log_upto (K : nat) : list completion := flat_map steplog (seq 0 K).

  Lemma log_finished : forall K, lists_finished n s sc (tm K) (map jobof (log_upto K)).
  Proof.
    intros K. unfold lists_finished, log_upto. split.
    - induction K as [|K IH]; [constructor|]. rewrite seq_S, flat_map_app, map_app. cbn [flat_map plus]. rewrite app_nil_r.
      assert (N2 : NoDup (joblog K)).
      { unfold joblog. destruct (run_step K) as [_ [_ [_ [_ [_ [El _]]]]]]. rewrite El, map_map. pose proof (run_nodup K) as N.
        assert (G : forall l f, NoDup l -> NoDup (map (fun x : nat => jobof (Completion (tm (S K)) x (sq (qs (run K)) x) (dl ts (qs (run K)) x))) (filter f l))).
        { clear. induction l as [|x l IH]; intros f Hn; [constructor|]. inversion Hn; subst. cbn [filter]. destruct (f x); [|apply IH; assumption].
          cbn [map]. constructor; [|apply IH; assumption]. intros G. apply in_map_iff in G. destruct G as [y [E Hy]]. inversion E; subst.
          apply filter_In in Hy. apply H1. apply (proj1 Hy). }
        apply G. exact N. }
      fold (joblog K).
      assert (D : forall x, In x (map jobof (flat_map steplog (seq 0 K))) -> ~ In x (joblog K)).
      { intros [j t] Hx Hy. apply joblog_iff in Hy. destruct Hy as [_ [_ Ht]]. apply in_map_iff in Hx. destruct Hx as [c [Ec Hc]]. apply in_flat_map in Hc. destruct Hc as [k [Hk Hc]].
        apply in_seq in Hk. assert (Hj : In (j, t) (joblog k)) by (unfold joblog; apply in_map_iff; exists c; split; assumption).
        apply joblog_iff in Hj. destruct Hj as [_ [_ Ht']]. assert (tn (S k) <= tn K)%nat; [|lia].
        destruct (Nat.eq_dec (S k) K) as [<-|Nk]; [lia|]. apply Nat2Z.inj_le. rewrite !tn_z. pose proof (tm_mono (S k) K ltac:(lia)). lia. }
      clear - IH N2 D. induction (map jobof (flat_map steplog (seq 0 K))) as [|x l IHl]; [exact N2|]. cbn [app]. inversion IH; subst. constructor.
      + intros G. apply in_app_or in G. destruct G as [G|G]; [contradiction|]. apply (D x (or_introl eq_refl) G).
      + apply IHl; [assumption|]. intros y Hy. apply D. right. exact Hy.
    - intros j t. split.
      + intros H. apply in_map_iff in H. destruct H as [c [Ec Hc]]. apply in_flat_map in Hc. destruct Hc as [k [Hk Hc]]. apply in_seq in Hk.
        assert (Hj : In (j, t) (joblog k)) by (unfold joblog; apply in_map_iff; exists c; split; assumption). apply joblog_iff in Hj. destruct Hj as [H1 [H2 H3]].
        split; [exact H1|]. split; [exact H2|]. pose proof (tn_z (S k)). destruct (Nat.eq_dec (S k) K) as [<-|Nk]; [lia|]. pose proof (tm_mono (S k) K ltac:(lia)). lia.
      + intros [H1 [H2 H3]]. assert (Hpos : (0 < t)%nat).
        { destruct t; [|lia]. exfalso. destruct H2 as [H2 _]. unfold gcompleted in H2. destruct j as [i k']. cbn [fst snd] in *. rewrite (s_cst i k' H1) in H2.
          pose proof (sim_pos ts Hts i). unfold C in H2. change (gservice sc (i, k') 0) with 0 in H2. lia. }
        set (k := idx (pred t)). pose proof (idx_spec (pred t)) as Hx. fold k in Hx. pose proof (tn_z k). pose proof (tn_z (S k)).
        assert (Hj : In (j, t) (joblog k)) by (apply joblog_iff; split; [exact H1|]; split; [exact H2|]; lia).
        unfold joblog in Hj. apply in_map_iff in Hj. destruct Hj as [c [Ec Hc]]. apply in_map_iff. exists c. split; [exact Ec|]. apply in_flat_map. exists k. split; [|exact Hc].
        apply in_seq. split; [lia|]. destruct (Nat.lt_ge_cases k K) as [L|L]; [lia|]. exfalso. destruct (Nat.eq_dec K k) as [->|Nk]; [lia|]. pose proof (tm_mono K k ltac:(lia)). lia.
  Qed.

  Lemma log_fields : forall K c, In c (log_upto K) -> exists k, (k < K)%nat /\ c_time c = tm (S k) /\ c_deadline c = due es s (fst (jobof c)) /\ (c_task c < n)%nat.
  Proof.
    intros K c Hc. apply in_flat_map in Hc. destruct Hc as [k [Hk Hc]]. apply in_seq in Hk. exists k. split; [lia|].
    destruct (run_step k) as [_ [_ [_ [_ [_ [El _]]]]]]. rewrite El in Hc. apply in_map_iff in Hc. destruct Hc as [i [<- Hi]]. apply filter_In in Hi. destruct Hi as [Hi _].
    pose proof (task_in k i (or_introl Hi)) as Hn. cbn [c_time c_deadline jobof fst c_task c_seqno]. split; [reflexivity|]. split; [apply dl_due; exact Hn|exact Hn].
  Qed.

  (** ** simulate_until *)
  Section Loop.
    Context {A : Type}.
    Variables (cb : A -> completion -> A) (aborted : A -> bool) (E : Z).

    Lemma simulate_run : forall fuel k a, (Z.to_nat (E + 1 - tm k) < fuel)%nat ->
      exists K, simulate_until fuel pick pre ts cb aborted E (run k) a = Some (run K, fold_left cb (flat_map steplog (seq k (K - k))) a) /\ (k <= K)%nat /\
        (E < tm K \/ aborted (fold_left cb (flat_map steplog (seq k (K - k))) a) = true) /\
        (forall j, (k <= j < K)%nat -> tm j <= E /\ aborted (fold_left cb (flat_map steplog (seq k (j - k))) a) = false).
    Proof.
      induction fuel as [|fuel IH]; intros k a Hf; [lia|]. cbn [simulate_until]. fold (tm k).
      destruct ((tm k <=? E) && negb (aborted a)) eqn:Ec.
      - apply andb_true_iff in Ec. destruct Ec as [E1 E2]. apply Z.leb_le in E1. apply negb_true_iff in E2.
        destruct (run_step k) as [Es [_ [Hlt _]]]. unfold sim_step in Es. destruct (events (qs (run k))) as [|e r]; [discriminate|]. rewrite Es.
        destruct (IH (S k) (fold_left cb (steplog k) a)) as [K [K1 [K2 [K3 K4]]]].
        { lia. }
        assert (Eseq : forall j, (S k <= j)%nat -> fold_left cb (flat_map steplog (seq (S k) (j - S k))) (fold_left cb (steplog k) a) = fold_left cb (flat_map steplog (seq k (j - k))) a).
        { intros j Hj. replace (j - k)%nat with (S (j - S k)) by lia. cbn [seq flat_map]. rewrite fold_left_app. reflexivity. }
        exists K. rewrite K1, (Eseq K K2). split; [reflexivity|]. split; [lia|]. split; [rewrite <- (Eseq K K2); exact K3|].
        intros j Hj. destruct (Nat.eq_dec j k) as [->|N]; [rewrite Nat.sub_diag; cbn; split; assumption|]. rewrite <- Eseq by lia. apply K4. lia.
      - exists k. rewrite Nat.sub_diag. cbn [seq flat_map fold_left]. split; [reflexivity|]. split; [lia|]. split; [|intros j Hj; lia].
        apply andb_false_iff in Ec. destruct Ec as [Ec|Ec]; [left; apply Z.leb_gt in Ec; exact Ec|right; apply negb_false_iff in Ec; exact Ec].
    Qed.

    Lemma simulate_periodic : forall fuel a, 0 <= E -> aborted a = false -> (Z.to_nat E + 2 < fuel)%nat ->
      exists K, run_periodic_simulation fuel pick pre m ts cb aborted a E = Some (run K, fold_left cb (log_upto K) a) /\
        (E < tm K \/ aborted (fold_left cb (log_upto K) a) = true) /\
        (forall j, (j < K)%nat -> tm j <= E /\ aborted (fold_left cb (log_upto j) a) = false).
    Proof.
      intros fuel a HE Ha Hf. unfold run_periodic_simulation. cbn [init_sim now procs qs pops].
      change (Sim 0 (repeat None m) (fold_left (add_release 0) (seq 0 (length ts)) (Queues [] [] (fun _ => new_job))) 0) with start.
      destruct fuel as [|fuel]; [lia|]. cbn [simulate_until]. rewrite Ha. cbn [negb]. rewrite andb_true_r. replace (now start <=? E) with true by (symmetry; apply Z.leb_le; exact HE).
      destruct first_step as [st [Es [_ [Et _]]]]. assert (Er : run 0 = st) by (cbn [run]; unfold first; rewrite Es; reflexivity).
      unfold sim_step in Es. destruct (events (qs start)) as [|e r]; [discriminate|]. rewrite Es. cbn [fold_left]. rewrite <- Er.
      destruct (simulate_run fuel 0 a) as [K [K1 [K2 [K3 K4]]]]; [rewrite tm_zero; lia|].
      exists K. unfold log_upto. rewrite Nat.sub_0_r in K1, K3. split; [exact K1|]. split; [exact K3|]. intros j Hj. specialize (K4 j ltac:(lia)). rewrite Nat.sub_0_r in K4. exact K4.
    Qed.
  End Loop.
End Run.
