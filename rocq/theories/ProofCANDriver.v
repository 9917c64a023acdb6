(** Lemmas for C79. *)
From Coq Require Import ZArith QArith Lqa List Bool Lia Sorting.Sorted.
From Verif Require Import Base ModelCANSim ModelCANStats ModelCANDriver SpecCANStats SpecCANDriver ProofCANSim ProofCANStats.
Import ListNotations.
Open Scope Z_scope.

(** ** Without faults the callback and the representation of the jobs do not matter *)
Record alike (a b : canstate) : Prop := {
  al_now : cnow a = cnow b; al_bus : cbus a = cbus b; al_pend : cpending a = cpending b; al_ev : cevents a = cevents b;
  al_jobs : forall i, cjobs a i = cjobs b i; al_none : forall i, cj_faults (cjobs a i) = [];
  al_retr : cretr a = cretr b; al_pops : cpops a = cpops b; al_log : clog a = clog b }.

Definition oalike (a b : option canstate) : Prop :=
  match a, b with Some x, Some y => alike x y | None, None => True | _, _ => False end.

Lemma al_state : forall now bus pend ev f g retr pops log, (forall i, f i = g i) -> (forall i, cj_faults (f i) = []) ->
  alike (CANState now bus pend ev f retr pops log) (CANState now bus pend ev g retr pops log).
Proof. intros. constructor; cbn; auto. Qed.

Lemma al_push : forall a b e, alike a b -> alike (push_event a e) (push_event b e).
Proof. intros a b e [H1 H2 H3 H4 H5 H6 H7 H8 H9]. unfold push_event. rewrite H1, H2, H3, H4, H7, H8, H9. apply al_state; assumption. Qed.

Lemma al_put : forall a b i j, alike a b -> cj_faults j = [] -> alike (put_job a i j) (put_job b i j).
Proof.
  intros a b i j [H1 H2 H3 H4 H5 H6 H7 H8 H9] Hj. unfold put_job. rewrite H1, H2, H3, H4, H7, H8, H9. apply al_state.
  - intros k. destruct (Nat.eqb k i); auto.
  - intros k. destruct (Nat.eqb k i); auto.
Qed.

Lemma al_pending : forall a b i, alike a b -> alike (push_pending a i) (push_pending b i).
Proof. intros a b e [H1 H2 H3 H4 H5 H6 H7 H8 H9]. unfold push_pending. rewrite H1, H2, H3, H4, H7, H8, H9. apply al_state; assumption. Qed.

Lemma al_notify : forall a b o i, alike a b -> alike (notify a o i) (notify b o i).
Proof. intros a b o i [H1 H2 H3 H4 H5 H6 H7 H8 H9]. unfold notify. rewrite H1, H2, H3, H4, H5, H7, H8, H9. apply al_state; assumption. Qed.

Lemma al_delay : forall a b d, alike a b -> alike (delay a d) (delay b d).
Proof. intros a b d [H1 H2 H3 H4 H5 H6 H7 H8 H9]. unfold delay. rewrite H1, H2, H3, H4, H7, H8, H9. apply al_state; assumption. Qed.

Lemma al_release : forall ready a b i, (forall x y, alike x y -> oalike (ready x i) (ready y i)) -> alike a b ->
  oalike (can_add_release ready a i) (can_add_release ready b i).
Proof.
  intros ready a b i Hr H. unfold can_add_release. pose proof (al_now _ _ H) as E1. pose proof (al_jobs _ _ H i) as E2. rewrite E1, E2.
  destruct (cnow b <=? cj_release (cjobs b i)); [apply al_push, H|apply Hr, H].
Qed.

Lemma al_completed : forall ready ts a b i, (forall x y, alike x y -> oalike (ready x i) (ready y i)) -> alike a b ->
  oalike (can_completed ready ts a i) (can_completed ready ts b i).
Proof.
  intros ready ts a b i Hr H. unfold can_completed. apply al_release; [exact Hr|]. rewrite (al_jobs _ _ H i). apply al_put; [exact H|].
  cbn. rewrite <- (al_jobs _ _ H i). apply (al_none _ _ H).
Qed.

Lemma al_ready : forall fuel ts boot a b i, alike a b -> oalike (can_add_ready fuel ts boot a i) (can_add_ready fuel ts boot b i).
Proof.
  induction fuel as [|f IH]; intros ts boot a b i H; [exact I|]. cbn [can_add_ready]. cbv zeta.
  pose proof (al_jobs _ _ H i) as E. pose proof (al_none _ _ H i) as N. unfold is_omission. rewrite <- E, N. cbn [omission_scan].
  replace (if m_critical (msg_task ts i) then (false, []) else (false, @nil Z)) with (false, @nil Z) by (destruct (m_critical (msg_task ts i)); reflexivity).
  cbn [oalike]. apply al_notify, al_pending, al_put; [apply al_push, H|reflexivity].
Qed.

Lemma al_fire : forall fuel ts boot a b e, alike a b -> oalike (can_fire fuel ts boot a e) (can_fire fuel ts boot b e).
Proof.
  intros fuel ts boot a b e H. destruct e as [i|i k r|]; cbn [can_fire]; [apply al_ready, H| |exact H].
  destruct H as [H1 H2 H3 H4 H5 H6 H7 H8 H9]. rewrite H1, H2, H3, H4, H7, H8, H9. apply al_state; assumption.
Qed.

Lemma al_process : forall fuel pick ts boot a b, alike a b -> oalike (can_process_events fuel pick ts boot a) (can_process_events fuel pick ts boot b).
Proof.
  induction fuel as [|f IH]; intros pick ts boot a b H; [exact I|]. cbn [can_process_events].
  rewrite (al_pops _ _ H), (al_ev _ _ H). destruct (pop_min pick (cpops b) fst (cevents b)) as [(e, rest)|]; [|exact H].
  rewrite (al_now _ _ H). destruct (cnow b <? fst e); [exact H|].
  assert (X : alike (CANState (cnow b) (cbus a) (cpending a) rest (cjobs a) (cretr a) (S (cpops b)) (clog a))
    (CANState (cnow b) (cbus b) (cpending b) rest (cjobs b) (cretr b) (S (cpops b)) (clog b))).
  { destruct H as [H1 H2 H3 H4 H5 H6 H7 H8 H9]. rewrite H2, H3, H7, H9. apply al_state; assumption. }
  pose proof (al_fire f ts boot _ _ (snd e) X) as F.
  destruct (can_fire f ts boot (CANState (cnow b) (cbus a) (cpending a) rest (cjobs a) (cretr a) (S (cpops b)) (clog a)) (snd e)) as [x|];
    destruct (can_fire f ts boot (CANState (cnow b) (cbus b) (cpending b) rest (cjobs b) (cretr b) (S (cpops b)) (clog b)) (snd e)) as [y|]; cbn in F; try contradiction; [|exact I].
  apply IH, F.
Qed.

Lemma al_schedule : forall pick ts a b, alike a b -> alike (can_schedule pick ts a) (can_schedule pick ts b).
Proof.
  intros pick ts a b H. unfold can_schedule. rewrite (al_bus _ _ H), (al_pops _ _ H), (al_pend _ _ H). destruct (cbus b) as [i|] eqn:Eb; [exact H|].
  destruct (pop_min pick (cpops b) (fun i => m_priority (msg_task ts i)) (cpending b)) as [(i, rest)|]; [|exact H].
  cbv zeta. rewrite (al_now _ _ H), (al_jobs _ _ H i). apply al_push, al_notify, al_put.
  - destruct H as [H1 H2 H3 H4 H5 H6 H7 H8 H9]. rewrite H4, H7, H9. apply al_state; assumption.
  - unfold update_seqno. rewrite <- (al_jobs _ _ H i). destruct (cj_seqno (cjobs a i) <? _); cbn; apply (al_none _ _ H).
Qed.

Lemma al_retransmit : forall a b i, alike a b -> alike (retransmit a i) (retransmit b i).
Proof.
  intros a b i H. unfold retransmit. cbv zeta. rewrite <- (al_jobs _ _ H i). apply al_notify, al_pending, al_put; [exact H|]. cbn. apply (al_none _ _ H).
Qed.

Lemma al_progress : forall fuel ts boot cb cb' a b t, (forall l, cb l [] = []) -> (forall l, cb' l [] = []) -> alike a b ->
  oalike (can_progress fuel ts boot cb a t) (can_progress fuel ts boot cb' b t).
Proof.
  intros fuel ts boot cb cb' a b t C C' H. unfold can_progress. pose proof (al_bus _ _ H) as Eb. rewrite Eb. destruct (cbus b) as [i|].
  - cbv zeta. pose proof (al_jobs _ _ H i) as Ej. pose proof (al_none _ _ H i) as N.
    rewrite <- Ej, N. rewrite (al_now _ _ H), (al_retr _ _ H).
    assert (X : forall retr bus, alike
      (CANState t bus (cpending a) (cevents a) (cjobs (put_job (CANState t (Some i) (cpending a) (cevents a) (cjobs a) (cretr b) (cpops a) (clog a)) i (CANJob (cj_release (cjobs a i)) (cj_alloc (cjobs a i) + (t - cnow b)) (cj_seqno (cjobs a i)) []))) retr (cpops a) (clog a))
      (CANState t bus (cpending b) (cevents b) (cjobs (put_job (CANState t (Some i) (cpending b) (cevents b) (cjobs b) (cretr b) (cpops b) (clog b)) i (CANJob (cj_release (cjobs a i)) (cj_alloc (cjobs a i) + (t - cnow b)) (cj_seqno (cjobs a i)) []))) retr (cpops b) (clog b))).
    { intros retr bus. destruct H as [H1 H2 H3 H4 H5 H6 H7 H8 H9]. rewrite H3, H4, H8, H9. apply al_state; intros k; cbn; destruct (Nat.eqb k i); auto. }
    cbn [cj_alloc cj_release cj_seqno cj_faults]. destruct (m_cost (msg_task ts i) <=? cj_alloc (cjobs a i) + (t - cnow b)); [|exact (X (cretr b) (Some i))].
    destruct (is_retransmission (t - m_cost (msg_task ts i)) t (cretr b)) as (hit, retr). specialize (X retr None). destruct hit.
    + exact (al_delay _ _ 29 (al_retransmit _ _ i (al_notify _ _ Retransmitted i X))).
    + rewrite C, C'.
      pose proof (al_completed (can_add_ready fuel ts boot) ts _ _ i (fun x y => al_ready fuel ts boot x y i)
        (al_put _ _ i (CANJob (cj_release (cjobs a i)) (cj_alloc (cjobs a i) + (t - cnow b)) (cj_seqno (cjobs a i)) []) (al_notify _ _ Completed i X) eq_refl)) as F.
      match type of F with oalike ?x ?y => change (oalike (match x with Some s => Some (delay s 3) | None => None end) (match y with Some s => Some (delay s 3) | None => None end));
        destruct x as [x'|]; destruct y as [y'|]; cbn in F; try contradiction; [apply al_delay, F|exact I] end.
  - destruct H as [H1 H2 H3 H4 H5 H6 H7 H8 H9]. rewrite H3, H4, H7, H8, H9. apply al_state; assumption.
Qed.

Lemma al_simulate : forall fuel pick ts boot cb cb' ab stop a b, (forall l, cb l [] = []) -> (forall l, cb' l [] = []) -> alike a b ->
  oalike (can_simulate_until fuel pick ts boot cb ab stop a) (can_simulate_until fuel pick ts boot cb' ab stop b).
Proof.
  induction fuel as [|f IH]; intros pick ts boot cb cb' ab stop a b C C' H; [exact I|]. cbn [can_simulate_until].
  rewrite (al_now _ _ H), (al_log _ _ H), (al_pops _ _ H), (al_ev _ _ H). destruct ((cnow b <=? stop) && negb (ab (clog b))); [|exact H].
  destruct (pop_min pick (cpops b) fst (cevents b)) as [(e, r)|]; [|exact H]. unfold can_advance_time.
  pose proof (al_progress f ts boot cb cb' a b (fst e) C C' H) as P.
  destruct (can_progress f ts boot cb a (fst e)) as [a1|]; destruct (can_progress f ts boot cb' b (fst e)) as [b1|]; cbn in P; try contradiction; [|exact I].
  pose proof (al_process f pick ts boot a1 b1 P) as Q.
  destruct (can_process_events f pick ts boot a1) as [a2|]; destruct (can_process_events f pick ts boot b1) as [b2|]; cbn in Q; try contradiction; [|exact I].
  apply IH; [exact C|exact C'|apply al_schedule, Q].
Qed.

(** ** Coins do not matter without corrupted messages *)
Definition clean (l : list round) : Prop := StronglySorted before l /\ forall r, In r l -> rd_faulty r = 0%nat /\ (0 < rd_ok r)%nat.

Lemma count_clean : forall q l, clean l -> clean (count_message q false l) /\ (forall r, In r (count_message q false l) -> exists r', In r' l /\ rd_seqno r' = rd_seqno r).
Proof.
  intros q l (S & F). induction S as [|r l S IH H]; [split; [split; [constructor|intros ? []]|intros ? []]|].
  cbn [count_message]. destruct (IH (fun x Hx => F x (or_intror Hx))) as ((S' & F') & M). destruct (F r (or_introl eq_refl)) as (F1 & F2).
  destruct (rd_seqno r =? q).
  - split; [split|].
    + constructor; [exact S|]. rewrite Forall_forall in *. intros x Hx. unfold before in *. cbn. apply (H x Hx).
    + intros x [<-|Hx]; [cbn; lia|apply F; right; exact Hx].
    + intros x [<-|Hx]; [exists r; split; [left; reflexivity|reflexivity]|exists x; split; [right; exact Hx|reflexivity]].
  - split; [split|].
    + constructor; [exact S'|]. rewrite Forall_forall in *. intros x Hx. destruct (M x Hx) as (x' & A & B). unfold before in *. rewrite <- B. apply (H x' A).
    + intros x [<-|Hx]; [apply F; left; reflexivity|apply F', Hx].
    + intros x [<-|Hx]; [exists r; split; [left; reflexivity|reflexivity]|]. destruct (M x Hx) as (x' & A & B). exists x'. split; [right; exact A|exact B].
Qed.

Lemma sorted_last : forall l r, StronglySorted before (l ++ [r]) -> forall e, In e l -> rd_seqno e < rd_seqno r.
Proof. intros l r H. apply (sorted_app l r) in H. apply H. Qed.

Lemma add_clean : forall q l r, clean l -> find_round q (add_round q l) = Some r -> clean (count_message q false (add_round q l)).
Proof.
  intros q l r (S & F) _. unfold add_round. destruct (rev l) as [|b r'] eqn:E.
  - assert (l = []) as -> by (rewrite <- (rev_involutive l), E; reflexivity). cbn. rewrite Z.eqb_refl. split; [repeat constructor|].
    intros x [<-|[]]. cbn. lia.
  - assert (El : l = rev r' ++ [b]) by (rewrite <- (rev_involutive l), E; reflexivity).
    destruct (rd_seqno b <? q) eqn:Eb; [|apply count_clean; split; assumption]. apply Z.ltb_lt in Eb.
    assert (L : forall e, In e l -> rd_seqno e < q).
    { intros e He. rewrite El in He, S. pose proof (sorted_last _ _ S) as X. apply in_app_or in He. destruct He as [He|[<-|[]]]; [specialize (X e He); lia|exact Eb]. }
    rewrite (count_last q false l 0 0 L). split.
    + apply sorted_app. split; [exact S|exact L].
    + intros x Hx. apply in_app_or in Hx. destruct Hx as [Hx|[<-|[]]]; [apply F, Hx|cbn; lia].
Qed.

Lemma add_none : forall q l, clean l -> find_round q (add_round q l) = None -> add_round q l = l.
Proof.
  intros q l _ H. unfold add_round in *. destruct (rev l) as [|b r'] eqn:E; [cbn in H; rewrite Z.eqb_refl in H; discriminate|].
  destruct (rd_seqno b <? q); [|reflexivity]. rewrite find_app in H. destruct (find_round q l); [discriminate|]. cbn in H. rewrite Z.eqb_refl in H. discriminate.
Qed.

Lemma find_in : forall q l r, find_round q l = Some r -> In r l.
Proof.
  induction l as [|x l IH]; intros r H; [discriminate|]. cbn in H. destruct (rd_seqno x =? q); [injection H as ->; left; reflexivity|right; apply IH, H].
Qed.

(** the same calls but for the coins, with hosts that have not failed *)
Inductive but_coins : call -> call -> Prop :=
| bc_msg : forall q r t, but_coins (CallCompleted q r t []) (CallCompleted q r t [])
| bc_late : forall q c c', but_coins (CallExpired q c) (CallExpired q c').

Lemma commission_nil : forall cr r t, commission cr r t [] = (false, []).
Proof. intros [|] r t; reflexivity. Qed.

Lemma coins_step : forall cr rp s c c', clean (active (fst s)) -> but_coins c c' ->
  stats_call cr rp s c = stats_call cr rp s c' /\ clean (active (fst (stats_call cr rp s c))).
Proof.
  intros cr rp s c c' H B. destruct B as [q r t|q c c'].
  - split; [reflexivity|]. cbn [stats_call]. unfold stats_completed, job_completed_sync.
    destruct (q <=? latest (fst s)).
    + destruct (job_completed_async cr rp q r t [] (snd s)) as (x, y). exact H.
    + cbv zeta. destruct (find_round q (add_round q (active (fst s)))) as [rd|] eqn:E.
      * rewrite commission_nil. destruct (job_completed_async cr rp q r t [] (snd s)) as (x, y). cbn. apply (add_clean q _ rd H E).
      * destruct (job_completed_async cr rp q r t [] (snd s)) as (x, y). cbn. rewrite (add_none _ _ H E). exact H.
  - cbn [stats_call fst]. unfold job_deadline_expired_sync. destruct (q <=? latest (fst s)); [split; [reflexivity|exact H]|].
    destruct (find_round q (active (fst s))) as [rd|] eqn:E; [|split; [reflexivity|exact H]]. cbv zeta.
    destruct H as (S & F). destruct (F rd (find_in _ _ _ E)) as (F1 & F2). rewrite F1. replace (Nat.ltb 0 (rd_ok rd)) with true by (symmetry; apply Nat.ltb_lt; exact F2).
    split; [reflexivity|]. cbn. split; [apply erase_sorted, S|]. intros x Hx. apply F, (erase_incl q _ x Hx).
Qed.

Lemma coins_run : forall cr rp h h', Forall2 but_coins h h' -> stats_run cr rp h = stats_run cr rp h'.
Proof.
  intros cr rp h h' H. unfold stats_run. assert (C : clean (active (fst (init_info, init_info)))) by (split; [constructor|intros ? []]).
  revert C. generalize (init_info, init_info). induction H as [|c c' h h' B H IH]; intros s C; [reflexivity|]. cbn [fold_left].
  destruct (coins_step cr rp s c c' C B) as (E & C'). rewrite <- E. apply IH, C'.
Qed.

Lemma feeds_coins : forall mine log h h', feeds mine log h -> feeds mine log h' ->
  (forall q r t fs, In (CallCompleted q r t fs) h -> fs = []) -> (forall q r t fs, In (CallCompleted q r t fs) h' -> fs = []) -> Forall2 but_coins h h'.
Proof.
  intros mine log h h' H. revert h'. induction H as [|l h t i q r fs H IH Hm Hs|l h t i q r coin H IH Hm|l h o H IH Ho]; intros h' H' N N'.
  - inversion H'. constructor.
  - inversion H' as [|? h0 ? ? ? ? fs' H0 Hm' Hs'| |? ? ? H0 Ho']; subst.
    + rewrite (N q r t fs) by (apply in_or_app; right; left; reflexivity). rewrite (N' q r t fs') by (apply in_or_app; right; left; reflexivity).
      apply Forall2_app; [|constructor; [constructor|constructor]]. apply IH; [exact H0| |]; intros q' r' t' x Hx; [eapply N|eapply N']; apply in_or_app; left; exact Hx.
    + rewrite (Ho' _ _ _ _ (or_introl eq_refl)) in Hm. discriminate.
  - inversion H' as [| |? h0 ? ? ? ? coin' H0 Hm'|? ? ? H0 Ho']; subst.
    + apply Forall2_app; [|constructor; [constructor|constructor]]. apply IH; [exact H0| |]; intros q' r' t' x Hx; [eapply N|eapply N']; apply in_or_app; left; exact Hx.
    + rewrite (Ho' _ _ _ _ (or_intror eq_refl)) in Hm. discriminate.
  - inversion H' as [|? h0 t i q r fs' H0 Hm' Hs'|? h0 t i q r coin' H0 Hm'|? ? ? H0 Ho']; subst.
    + rewrite (Ho _ _ _ _ (or_introl eq_refl)) in Hm'. discriminate.
    + rewrite (Ho _ _ _ _ (or_intror eq_refl)) in Hm'. discriminate.
    + apply IH; assumption.
Qed.

Lemma reads_same : forall mine cr rp sync log c c', reads_stats mine cr rp sync log c -> reads_stats mine cr rp sync log c' -> c = c'.
Proof.
  intros mine cr rp sync log c c' (h & F & N & E) (h' & F' & N' & E'). cbv zeta in E, E'.
  rewrite E, E', (coins_run cr rp h h' (feeds_coins mine log h h' F F' N N')). reflexivity.
Qed.

(** ** The driver starts every iteration alike *)
Definition fresh (ts : list cantask) : canstate :=
  CANState 0 None [] (map (fun i => (0, EvRelease i)) (seq 0 (length ts))) (fun _ => CANJob 0 0 1 []) [] 0 [].

Lemma restart_fresh : forall fuel ts boot st, restart fuel ts boot st = Some (fresh ts).
Proof. intros fuel ts boot st. unfold restart. rewrite add_jobs_events by (cbn; auto). reflexivity. Qed.

Lemma first_fresh : forall fuel ts boot, can_add_jobs fuel ts boot (seq 0 (length ts)) (can_init (fun _ => []) []) = Some (fresh ts).
Proof. intros fuel ts boot. rewrite add_jobs_events by (cbn; auto). reflexivity. Qed.

Lemma inject_simulates : forall fuel pick ts boot cb stop c,
  can_simulate_until fuel pick ts boot cb (fun _ => false) stop (inject_faults ts c (fresh ts)) =
  can_simulation fuel pick ts boot cb (fun _ => false) (fun i => if m_critical (msg_task ts i) then cf_hosts c i else []) (cf_wire c) stop.
Proof. intros. unfold can_simulation. rewrite add_jobs_events by (cbn; auto). reflexivity. Qed.

Lemma null_true : forall A (l : list A), null l = true <-> l = [].
Proof. intros A [|x l]; cbn; split; congruence. Qed.

Lemma quiet_iff : forall ts c, fault_free_sim ts (inject_faults ts c (fresh ts)) = true <-> quiet ts c.
Proof.
  intros ts c. unfold fault_free_sim, quiet. rewrite andb_true_iff, forallb_forall. cbn [cretr inject_faults fresh app]. rewrite null_true. split.
  - intros (H & ->). split; [reflexivity|]. intros i Hi Hc. specialize (H i). rewrite in_seq in H. specialize (H ltac:(lia)).
    cbn in H. rewrite Hc in H. cbn in H. apply null_true, H.
  - intros (-> & H). split; [|reflexivity]. intros i Hi. rewrite in_seq in Hi. cbn. destruct (m_critical (msg_task ts i)) eqn:E; [|reflexivity].
    cbn. apply null_true, H; [lia|exact E].
Qed.

Lemma quiet_alike : forall ts c, quiet ts c -> alike (inject_faults ts c (fresh ts)) (fresh ts).
Proof.
  intros ts c (W & Q). assert (X : forall i, (if m_critical (msg_task ts i) then cf_hosts c i else []) = []).
  { intros i. destruct (m_critical (msg_task ts i)) eqn:E; [|reflexivity]. apply Q; [|exact E].
    destruct (Nat.lt_ge_cases i (length ts)) as [L|L]; [exact L|]. unfold msg_task in E. rewrite nth_overflow in E by exact L. discriminate. }
  unfold inject_faults, fresh. cbn. rewrite W. apply al_state; intros i; cbn; rewrite X; reflexivity.
Qed.

Section DRIVE.
Variables (fuel : nat) (pick : nat -> nat) (ts : list cantask) (boot stop : Z).
Variables (callback : nat -> list obs -> list Z -> list Z) (counts : nat -> list obs -> nat * nat).

(** what the iterations from the k-th on contribute: ratios of those simulated, number
    of those that are not, and all ratios *)
Inductive trace (fin : option Q) : nat -> list config -> list (option Q) -> nat -> list (option Q) -> Prop :=
| tr_nil : forall k, trace fin k [] [] 0 []
| tr_quiet : forall k c r ns f rs, quiet ts c -> trace fin (S k) r ns f rs -> trace fin k (c :: r) ns (S f) (fin :: rs)
| tr_noisy : forall k c r ns f rs st, simulates fuel pick ts boot stop (callback k) c st -> trace fin (S k) r ns f rs ->
    trace fin k (c :: r) (failure_ratio (counts k (clog st)) :: ns) f (failure_ratio (counts k (clog st)) :: rs).

Lemma iterations_trace : forall fin configs k prob free st' prob' free',
  run_iterations fuel pick ts boot callback counts stop k configs (fresh ts) prob free = Some (st', prob', free') ->
  st' = fresh ts /\ exists ns f rs, trace fin k configs ns f rs /\ prob' = fold_left nan_add ns prob /\ free' = (free + f)%nat.
Proof.
  intros fin configs. induction configs as [|c r IH]; intros k prob free st' prob' free' H; cbn [run_iterations] in H.
  - injection H as <- <- <-. split; [reflexivity|]. exists [], 0%nat, []. repeat split; [constructor|lia].
  - cbv zeta in H. destruct (fault_free_sim ts (inject_faults ts c (fresh ts))) eqn:E.
    + rewrite restart_fresh in H. destruct (IH _ _ _ _ _ _ H) as (E1 & ns & f & rs & T & E2 & E3). split; [exact E1|].
      exists ns, (S f), (fin :: rs). split; [constructor; [apply quiet_iff, E|exact T]|]. split; [exact E2|lia].
    + rewrite inject_simulates in H. destruct (can_simulation _ _ _ _ _ _ _ _ _) as [st2|] eqn:Es in H; [|discriminate].
      rewrite restart_fresh in H. destruct (IH _ _ _ _ _ _ H) as (E1 & ns & f & rs & T & E2 & E3). split; [exact E1|].
      exists (failure_ratio (counts k (clog st2)) :: ns), f, (failure_ratio (counts k (clog st2)) :: rs).
      split; [apply (tr_noisy fin k c r ns f rs st2 Es T)|]. split; [exact E2|exact E3].
Qed.

Lemma trace_length : forall fin k cs ns f rs, trace fin k cs ns f rs -> length rs = length cs.
Proof. intros fin k cs ns f rs H. induction H; cbn; congruence. Qed.

Lemma fold_none : forall ns, fold_left nan_add ns None = None.
Proof. induction ns; cbn; auto. Qed.

(** the total of the simulated ratios *)
Lemma fold_total : forall ns p, match fold_left nan_add ns (Some p) with
  | Some x => exists qs, ns = map Some qs /\ (x == p + fold_right Qplus 0 qs)%Q
  | None => In None ns end.
Proof.
  induction ns as [|[y|] ns IH]; intros p; cbn [fold_left nan_add].
  - exists []. split; [reflexivity|]. cbn [fold_right]. unfold inject_Z; cbn [Z.of_nat]; lra.
  - specialize (IH (p + y)%Q). destruct (fold_left nan_add ns (Some (p + y)%Q)) as [x|].
    + destruct IH as (qs & -> & E). exists (y :: qs). split; [reflexivity|]. cbn [fold_right]. lra.
    + right. exact IH.
  - rewrite fold_none. left. reflexivity.
Qed.

Lemma trace_none : forall fin k cs ns f rs, trace fin k cs ns f rs -> In None ns -> In None rs.
Proof. intros fin k cs ns f rs H. induction H; intros Hin; [exact Hin|right; auto|]. destruct Hin as [E|Hin]; [left; exact E|right; auto]. Qed.

Lemma trace_some : forall fin k cs ns f rs, trace fin k cs ns f rs -> forall qs, ns = map Some qs -> (f = 0%nat) ->
  exists zs, rs = map Some zs /\ (fold_right Qplus 0 zs == fold_right Qplus 0 qs)%Q.
Proof.
  intros fin k cs ns f rs H. induction H as [k|k c r ns f rs Hq T IH|k c r ns f rs st Hs T IH]; intros qs E F.
  - destruct qs; [|discriminate]. exists []. split; [reflexivity|lra].
  - discriminate.
  - destruct qs as [|q qs]; [discriminate|]. cbn in E. injection E as E1 E2. destruct (IH qs E2 F) as (zs & -> & Ez).
    exists (q :: zs). rewrite E1. split; [reflexivity|]. cbn [fold_right]. lra.
Qed.

Lemma trace_fin : forall y k cs ns f rs, trace (Some y) k cs ns f rs -> forall qs, ns = map Some qs ->
  exists zs, rs = map Some zs /\ (fold_right Qplus 0 zs == fold_right Qplus 0 qs + y * inject_Z (Z.of_nat f))%Q.
Proof.
  intros y k cs ns f rs H. induction H as [k|k c r ns f rs Hq T IH|k c r ns f rs st Hs T IH]; intros qs E.
  - destruct qs; [|discriminate]. exists []. split; [reflexivity|]. cbn [fold_right]. unfold inject_Z; cbn [Z.of_nat]; lra.
  - destruct (IH qs E) as (zs & -> & Ez). exists (y :: zs). split; [reflexivity|]. cbn [fold_right].
    rewrite Nat2Z.inj_succ, <- Z.add_1_r, inject_Z_plus. change (inject_Z 1) with 1%Q. lra.
  - destruct qs as [|q qs]; [discriminate|]. cbn in E. injection E as E1 E2. destruct (IH qs E2) as (zs & -> & Ez).
    exists (q :: zs). rewrite E1. split; [reflexivity|]. cbn [fold_right]. lra.
Qed.

Lemma trace_fin_none : forall k cs ns f rs, trace None k cs ns f rs -> (0 < f)%nat -> In None rs.
Proof. intros k cs ns f rs H. induction H; intros F; [lia|left; reflexivity|right; auto]. Qed.

Lemma over_mean : forall x zs n, n = length zs -> (x == fold_right Qplus 0 zs)%Q -> is_mean (map Some zs) (nan_over (Some x) n).
Proof.
  intros x zs n -> E. cbn [nan_over]. destruct zs as [|z zs]; [cbn; left; reflexivity|]. cbn [length Nat.eqb]. split; [discriminate|].
  exists (z :: zs). split; [reflexivity|]. cbn [length]. rewrite E. field. unfold Qeq. cbn. lia.
Qed.

Lemma mean_free : forall fin cs ns rs, trace fin 0 cs ns 0 rs -> is_mean rs (nan_over (fold_left nan_add ns (Some 0%Q)) (length cs)).
Proof.
  intros fin cs ns rs T. pose proof (trace_length _ _ _ _ _ _ T) as L. pose proof (fold_total ns 0%Q) as F. destruct (fold_left nan_add ns (Some 0%Q)) as [x|].
  - destruct F as (qs & E & Ex). destruct (trace_some _ _ _ _ _ _ T qs E eq_refl) as (zs & -> & Ez). rewrite map_length in L. apply over_mean; [congruence|]. lra.
  - cbn. right. apply (trace_none _ _ _ _ _ _ T F).
Qed.

Lemma mean_fin : forall fin cs ns f rs, trace fin 0 cs ns f rs -> (0 < f)%nat ->
  is_mean rs (nan_over (nan_add (fold_left nan_add ns (Some 0%Q)) (nan_times fin f)) (length cs)).
Proof.
  intros fin cs ns f rs T Hf. pose proof (trace_length _ _ _ _ _ _ T) as L. pose proof (fold_total ns 0%Q) as F. destruct (fold_left nan_add ns (Some 0%Q)) as [x|].
  - destruct F as (qs & E & Ex). destruct fin as [y|]; [|cbn; right; apply (trace_fin_none _ _ _ _ _ T Hf)].
    destruct (trace_fin _ _ _ _ _ _ T qs E) as (zs & -> & Ez). rewrite map_length in L. cbn [nan_times nan_add]. apply over_mean; [congruence|]. lra.
  - cbn. right. apply (trace_none _ _ _ _ _ _ T F).
Qed.

Lemma ratio_ok : forall c, is_ratio c (failure_ratio c).
Proof.
  intros (ok, f). unfold failure_ratio. destruct (Nat.eqb (ok + f) 0) eqn:E; [apply Nat.eqb_eq in E; exact E|]. apply Nat.eqb_neq in E.
  unfold is_ratio, fst, snd. split; [|lia]. field. unfold Qeq. cbn. lia.
Qed.

(** every iteration gets the ratio of its own simulation *)
Lemma trace_runs : forall fin k cs ns f rs, trace fin k cs ns f rs ->
  (forall j c, quiet ts c -> In c cs -> (0 < f)%nat -> exists st, simulates fuel pick ts boot stop (callback j) c st /\ ((k <= j < k + length cs)%nat -> fin = failure_ratio (counts j (clog st)))) ->
  forall j c, nth_error cs j = Some c -> exists st, simulates fuel pick ts boot stop (callback (k + j)) c st /\ nth j rs None = failure_ratio (counts (k + j) (clog st)).
Proof.
  intros fin k cs ns f rs H. induction H as [k|k c r ns f rs Hq T IH|k c r ns f rs st Hs T IH]; intros Q j c0 E.
  - destruct j; discriminate.
  - destruct j as [|j]; cbn in E.
    + injection E as <-. destruct (Q k c Hq (or_introl eq_refl) ltac:(lia)) as (st & S1 & S2). rewrite Nat.add_0_r. exists st. split; [exact S1|]. apply S2. cbn. lia.
    + replace (k + S j)%nat with (S k + j)%nat by lia. apply IH; [|exact E]. intros j' c' Q1 Q2 Q3.
      destruct (Q j' c' Q1 (or_intror Q2) ltac:(lia)) as (st & S1 & S2). exists st. split; [exact S1|]. intros B. apply S2. cbn. lia.
  - destruct j as [|j]; cbn in E.
    + injection E as <-. rewrite Nat.add_0_r. exists st. split; [exact Hs|reflexivity].
    + replace (k + S j)%nat with (S k + j)%nat by lia. apply IH; [|exact E]. intros j' c' Q1 Q2 Q3.
      destruct (Q j' c' Q1 (or_intror Q2) Q3) as (st' & S1 & S2). exists st'. split; [exact S1|]. intros B. apply S2. cbn. lia.
Qed.
End DRIVE.
