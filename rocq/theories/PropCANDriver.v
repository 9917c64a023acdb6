(** C79: the probabilities printed by the CAN bus simulator are the mean over all
    iterations, although those without faults are not simulated. *)
From Coq Require Import ZArith QArith Lqa List Bool Lia Sorting.Sorted.
From Verif Require Import Base ModelCANSim ModelCANStats ModelCANDriver SpecCANStats SpecCANDriver ProofCANSim ProofCANStats ProofCANDriver PropCANSim.
Import ListNotations.
Open Scope Z_scope.

(** Two simulations without faults make the same callbacks, whatever job_completed
    does to the host faults. *)
Theorem C79_fault_free : forall fuel pick ts boot stop cb cb' c c' st,
  (forall l, cb l [] = []) -> (forall l, cb' l [] = []) -> quiet ts c -> quiet ts c' ->
  simulates fuel pick ts boot stop cb c st ->
  exists st', simulates fuel pick ts boot stop cb' c' st' /\ clog st' = clog st.
Proof.
  intros fuel pick ts boot stop cb cb' c c' st C C' Q Q' H. unfold simulates in *. rewrite <- inject_simulates in H.
  pose proof (al_simulate fuel pick ts boot cb cb (fun _ => false) stop _ _ C C (quiet_alike ts c Q)) as A.
  pose proof (al_simulate fuel pick ts boot cb' cb (fun _ => false) stop _ _ C' C (quiet_alike ts c' Q')) as B.
  rewrite H in A. rewrite <- inject_simulates.
  destruct (can_simulate_until fuel pick ts boot cb (fun _ => false) stop (fresh ts)) as [z|]; cbn in A; [|contradiction].
  destruct (can_simulate_until fuel pick ts boot cb' (fun _ => false) stop (inject_faults ts c' (fresh ts))) as [y|]; cbn in B; [|contradiction].
  exists y. split; [reflexivity|]. rewrite (al_log _ _ B), (al_log _ _ A). reflexivity.
Qed.
Print Assumptions C79_fault_free.

(** Neither do the coins that break ties change the counters. *)
Theorem C79_coins : forall mine critical rprime sync log c c',
  reads_stats mine critical rprime sync log c -> reads_stats mine critical rprime sync log c' -> c = c'.
Proof. intros. eapply reads_same; eassumption. Qed.
Print Assumptions C79_coins.

(** What is printed is the mean of the failure ratios of separate, new simulations,
    one for each iteration. *)
Theorem C79_mean : forall fuel pick ts boot stop callback counts configs out mine critical rprime sync,
  (forall k l, callback k l [] = []) ->
  (forall k c st, quiet ts c -> simulates fuel pick ts boot stop (callback k) c st -> reads_stats mine critical rprime sync (clog st) (counts k (clog st))) ->
  tardiness_stats fuel pick ts boot callback counts stop configs = Some out ->
  exists rs, length rs = length configs /\ is_mean rs out /\
    forall k c, nth_error configs k = Some c ->
      exists st, simulates fuel pick ts boot stop (callback k) c st /\ is_ratio (counts k (clog st)) (nth k rs None).
Proof.
  intros fuel pick ts boot stop callback counts configs out mine critical rprime sync C R H. unfold tardiness_stats in H. rewrite first_fresh in H.
  destruct (run_iterations fuel pick ts boot callback counts stop 0 configs (fresh ts) (Some 0%Q) 0) as [((st', prob), free)|] eqn:E; [|discriminate].
  assert (Est : st' = fresh ts) by (destruct (iterations_trace fuel pick ts boot stop callback counts None configs _ _ _ _ _ _ E) as (X & _); exact X).
  subst st'.
  set (q0 := Config (fun _ => []) []). assert (Q0 : quiet ts q0) by (split; [reflexivity|intros; reflexivity]).
  assert (I0 : can_simulate_until fuel pick ts boot (callback (length configs)) (fun _ => false) stop (fresh ts) =
    can_simulation fuel pick ts boot (callback (length configs)) (fun _ => false) (fun _ => []) [] stop).
  { unfold can_simulation. rewrite add_jobs_events by (cbn; auto). reflexivity. }
  destruct (Nat.ltb 0 free) eqn:Ef.
  - apply Nat.ltb_lt in Ef.
    destruct (can_simulate_until fuel pick ts boot (callback (length configs)) (fun _ => false) stop (fresh ts)) as [st2|] eqn:Es; [|discriminate].
    injection H as <-. set (fin := failure_ratio (counts (length configs) (clog st2))).
    destruct (iterations_trace fuel pick ts boot stop callback counts fin configs _ _ _ _ _ _ E) as (_ & ns & f & rs & T & Ep & Efr). cbn in Efr. subst prob free.
    exists rs. split; [apply (trace_length _ _ _ _ _ _ _ _ _ _ _ _ _ T)|]. split; [apply (mean_fin _ _ _ _ _ _ _ _ _ _ _ _ T Ef)|].
    assert (S2 : exists s, simulates fuel pick ts boot stop (callback (length configs)) q0 s /\ clog s = clog st2).
    { unfold simulates. rewrite <- inject_simulates.
      pose proof (al_simulate fuel pick ts boot _ _ (fun _ => false) stop _ _ (C (length configs)) (C (length configs)) (quiet_alike ts q0 Q0)) as A. rewrite Es in A.
      destruct (can_simulate_until fuel pick ts boot (callback (length configs)) (fun _ => false) stop (inject_faults ts q0 (fresh ts))) as [y|]; cbn in A; [|contradiction].
      exists y. split; [reflexivity|apply (al_log _ _ A)]. }
    destruct S2 as (s2 & S2 & L2).
    intros k c Hk. destruct (trace_runs fuel pick ts boot stop callback counts _ _ _ _ _ _ T) with (j := k) (c := c) as (st & A & B); [|exact Hk|].
    + intros j c' Q' _ _. destruct (C79_fault_free _ _ _ _ _ _ (callback j) q0 c' s2 (C (length configs)) (C j) Q0 Q' S2) as (st & A & B).
      exists st. split; [exact A|]. intros _. unfold fin. f_equal. pose proof (R _ _ _ Q' A) as R1. pose proof (R _ _ _ Q0 S2) as R2.
      rewrite B, L2 in R1. rewrite L2 in R2. rewrite B, L2. apply (reads_same _ _ _ _ _ _ _ R2 R1).
    + exists st. split; [exact A|]. cbn in B. rewrite B. apply ratio_ok.
  - apply Nat.ltb_ge in Ef. injection H as <-.
    destruct (iterations_trace fuel pick ts boot stop callback counts None configs _ _ _ _ _ _ E) as (_ & ns & f & rs & T & Ep & Efr). cbn in Efr. subst prob free.
    assert (f = 0%nat) as -> by lia.
    exists rs. split; [apply (trace_length _ _ _ _ _ _ _ _ _ _ _ _ _ T)|]. split; [apply (mean_free _ _ _ _ _ _ _ _ _ _ _ T)|].
    intros k c Hk. destruct (trace_runs fuel pick ts boot stop callback counts _ _ _ _ _ _ T) with (j := k) (c := c) as (st & A & B); [intros; lia|exact Hk|].
    exists st. split; [exact A|]. cbn in B. rewrite B. apply ratio_ok.
Qed.
Print Assumptions C79_mean.

(** With positive costs and periods all iterations end. *)
Theorem C79_terminates : forall pick ts boot stop callback counts configs,
  (forall t, In t ts -> 0 < m_cost t /\ 0 < m_period t) -> (forall c, In c configs -> StronglySorted Z.le (cf_wire c)) ->
  (forall k l x, incl (callback k l x) x) ->
  exists fuel out, forall fuel', (fuel <= fuel')%nat -> tardiness_stats fuel' pick ts boot callback counts stop configs = Some out.
Proof.
  intros pick ts boot stop callback counts configs Hp Hw Hc. unfold tardiness_stats.
  destruct (C75_terminates pick ts boot (callback (length configs)) (fun _ => false) (fun _ => []) [] stop Hp ltac:(constructor) (Hc _)) as (f2 & s2 & T2).
  assert (X : forall k prob free, exists f r, fst (fst r) = fresh ts /\ forall f', (f <= f')%nat ->
    run_iterations f' pick ts boot callback counts stop k configs (fresh ts) prob free = Some r).
  { clear f2 s2 T2. induction configs as [|c r IH]; intros k prob free; [exists 0%nat, (fresh ts, prob, free); split; reflexivity|].
    cbn [run_iterations]. cbv zeta. destruct (fault_free_sim ts (inject_faults ts c (fresh ts))).
    - destruct (IH (fun c' Hin => Hw c' (or_intror Hin)) (S k) prob (S free)) as (f & r' & F & T). exists f, r'. split; [exact F|]. intros f' L. rewrite restart_fresh. apply T, L.
    - destruct (C75_terminates pick ts boot (callback k) (fun _ => false) (fun i => if m_critical (msg_task ts i) then cf_hosts c i else []) (cf_wire c) stop Hp (Hw c (or_introl eq_refl)) (Hc k)) as (f1 & s1 & T1).
      destruct (IH (fun c' Hin => Hw c' (or_intror Hin)) (S k) (nan_add prob (failure_ratio (counts k (clog s1)))) free) as (f & r' & F & T).
      exists (Nat.max f f1), r'. split; [exact F|]. intros f' L. rewrite inject_simulates, T1 by lia. rewrite restart_fresh. apply T. lia. }
  destruct (X 0%nat (Some 0%Q) 0%nat) as (f & ((s, prob), free) & F & T). cbn in F. subst s.
  exists (Nat.max f f2).
  exists (if Nat.ltb 0 free then nan_over (nan_add prob (nan_times (failure_ratio (counts (length configs) (clog s2))) free)) (length configs) else nan_over prob (length configs)).
  intros f' L. rewrite first_fresh, T by lia. destruct (Nat.ltb 0 free); [|reflexivity].
  specialize (T2 f' ltac:(lia)). unfold can_simulation in T2. rewrite first_fresh in T2. rewrite T2. reflexivity.
Qed.
Print Assumptions C79_terminates.

Lemma mean_bounds : forall rs q, (forall z, In (Some z) rs -> 0 <= z <= 1)%Q -> is_mean rs (Some q) -> (0 <= q <= 1)%Q.
Proof.
  intros rs q H (N & zs & -> & E).
  assert (B : (0 <= fold_right Qplus 0 zs <= inject_Z (Z.of_nat (length zs)))%Q).
  { clear E N. induction zs as [|z zs IH]; [cbn; split; apply Qle_refl|]. cbn [fold_right length]. rewrite Nat2Z.inj_succ, <- Z.add_1_r, inject_Z_plus.
    change (inject_Z 1) with 1%Q. destruct (H z) as (H1 & H2); [left; reflexivity|]. destruct IH as (I1 & I2); [intros z' Hz; apply H; right; exact Hz|]. split; lra. }
  assert (P : (0 < inject_Z (Z.of_nat (length zs)))%Q) by (destruct zs; [contradiction N; reflexivity|unfold Qlt; cbn; lia]).
  split; [destruct (Qlt_le_dec q 0) as [L|L]|destruct (Qlt_le_dec 1 q) as [L|L]]; try assumption; exfalso; nra.
Qed.

(** A number that is printed is a probability. *)
Theorem C79_range : forall fuel pick ts boot stop callback counts configs q mine critical rprime sync,
  (forall k l, callback k l [] = []) ->
  (forall k c st, quiet ts c -> simulates fuel pick ts boot stop (callback k) c st -> reads_stats mine critical rprime sync (clog st) (counts k (clog st))) ->
  tardiness_stats fuel pick ts boot callback counts stop configs = Some (Some q) -> (0 <= q <= 1)%Q.
Proof.
  intros fuel pick ts boot stop callback counts configs q mine critical rprime sync C R H.
  destruct (C79_mean _ _ _ _ _ _ _ _ _ _ _ _ _ C R H) as (rs & L & M & A). apply (mean_bounds rs q); [|exact M].
  intros z Hz. apply In_nth with (d := None) in Hz. destruct Hz as (k & Hk & E). rewrite L in Hk. apply nth_error_Some in Hk.
  destruct (nth_error configs k) as [c|] eqn:Ek; [|contradiction]. destruct (A k c Ek) as (st & _ & B). rewrite E in B. cbn in B. destruct B as (B1 & B2).
  destruct (counts k (clog st)) as (a, b). cbn [fst snd] in *. rewrite Nat2Z.inj_add, inject_Z_plus in B1.
  assert (P1 : (0 <= inject_Z (Z.of_nat a))%Q) by (unfold Qle; cbn; lia). assert (P2 : (0 <= inject_Z (Z.of_nat b))%Q) by (unfold Qle; cbn; lia).
  assert (P3 : (0 < inject_Z (Z.of_nat a) + inject_Z (Z.of_nat b))%Q) by (rewrite <- inject_Z_plus; unfold Qlt; cbn; lia).
  split; [destruct (Qlt_le_dec z 0) as [Lz|Lz]|destruct (Qlt_le_dec 1 z) as [Lz|Lz]]; try assumption; exfalso; nra.
Qed.
Print Assumptions C79_range.

(** the calls of a simulation in which no host fails, tails when a coin is tossed *)
Definition plain_calls (mine : nat -> bool) (log : list obs) : list call :=
  fold_right (fun o h => match o with
    | Completed t i q r => if mine i then h ++ [CallCompleted q r t []] else h
    | Expired t i q r => if mine i then h ++ [CallExpired q false] else h
    | _ => h end) [] log.

Lemma plain_feeds : forall mine log, feeds mine log (plain_calls mine log) /\ forall q r t fs, In (CallCompleted q r t fs) (plain_calls mine log) -> fs = [].
Proof.
  intros mine log. induction log as [|o log (F & N)]; [split; [constructor|intros ? ? ? ? []]|].
  destruct o as [t i q r|t i q r|t i q r|t i q r|t i q r|t i q r]; cbn [plain_calls fold_right]; fold (plain_calls mine log);
    try (split; [constructor; [exact F|intros ? ? ? ? [E|E]; discriminate E]|exact N]);
    destruct (mine i) eqn:Em;
    try (split; [apply fe_other; [exact F|intros ? ? ? ? [E|E]; (discriminate E || (injection E; intros; subst; exact Em))]|exact N]).
  all: split; [constructor; auto; constructor|]; intros q' r' t' fs Hin; apply in_app_or in Hin; destruct Hin as [Hin|[E|[]]]; [eapply N; exact Hin|congruence].
Qed.

Definition sync_counts (mine : nat -> bool) (critical : bool) (_ : nat) (log : list obs) : nat * nat :=
  let i := fst (stats_run critical 1 (plain_calls mine log)) in (n_ok i, n_faulty i).

(** Even if there are iterations, what is printed need not be a number: no deadline of
    the task may be reached before the end. *)
Theorem C79_number_refuted : exists fuel pick ts boot stop callback counts configs,
  (forall t, In t ts -> 0 < m_cost t /\ 0 < m_period t) /\ configs <> [] /\ (0 < length ts)%nat /\ 0 < stop /\
  (forall k l, callback k l [] = []) /\
  (forall k c st, quiet ts c -> simulates fuel pick ts boot stop (callback k) c st -> reads_stats (fun i => Nat.eqb i 1) false 1 true (clog st) (counts k (clog st))) /\
  tardiness_stats fuel pick ts boot callback counts stop configs = Some None.
Proof.
  exists 100%nat, (fun _ => 0%nat), [CANTask 5 20 20 0 false; CANTask 4 100 100 1 false], 0, 30, (fun _ _ l => l), (sync_counts (fun i => Nat.eqb i 1) false), [Config (fun _ => []) []].
  split; [intros t [<-|[<-|[]]]; cbn; lia|]. split; [discriminate|]. split; [cbn; lia|]. split; [lia|]. split; [reflexivity|]. split.
  - intros k c st _ _. exists (plain_calls (fun i => Nat.eqb i 1) (clog st)). destruct (plain_feeds (fun i => Nat.eqb i 1) (clog st)) as (F & N). auto.
  - vm_compute. reflexivity.
Qed.
Print Assumptions C79_number_refuted.

(** Three iterations: without faults, with a disturbed frame that makes the message
    late, and without faults again. *)
Definition drive_set : list cantask := [CANTask 5 30 30 0 false].
Definition drive_configs : list config := [Config (fun _ => []) []; Config (fun _ => []) [2; 3]; Config (fun _ => [7]) []].

Example C79_sample :
  (forall t, In t drive_set -> 0 < m_cost t /\ 0 < m_period t) /\
  (forall k c st, quiet drive_set c -> simulates 100 (fun _ => 0%nat) drive_set 5 120 (fun _ l => l) c st ->
     reads_stats (fun _ => true) false 1 true (clog st) (sync_counts (fun _ => true) false k (clog st))) /\
  option_map (option_map Qred) (tardiness_stats 100 (fun _ => 0%nat) drive_set 5 (fun _ _ l => l) (sync_counts (fun _ => true) false) 120 drive_configs) = Some (Some (1 # 9))%Q.
Proof.
  split; [intros t [<-|[]]; cbn; lia|]. split.
  - intros k c st _ _. exists (plain_calls (fun _ => true) (clog st)). destruct (plain_feeds (fun _ => true) (clog st)) as (F & N). auto.
  - vm_compute. reflexivity.
Qed.
