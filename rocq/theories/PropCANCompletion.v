(** C80: get_job_completion_time returns the time at which an instance of a message
    completes in the complete simulation. *)
From Coq Require Import ZArith List Bool Lia Sorting.Sorted.
From Verif Require Import Base ModelCANSim ModelCANCompletion ProofCANSim PropCANSim.
Import ListNotations.
Open Scope Z_scope.

(** ** Specification *)
(** the instance [seqno] of a message with this id and priority completes at [t] *)
Definition completes_at (ts : list cantask) (ids : list Z) (taskid priority seqno : Z) (log : list obs) (t : Z) : Prop :=
  exists i r, In (Completed t i seqno r) log /\ nth i ids 0 = taskid /\ m_priority (msg_task ts i) = priority.

(** the oldest such completion comes before all others (logs are newest first) *)
Definition first_completes_at (ts : list cantask) (ids : list Z) (taskid priority seqno : Z) (log : list obs) (t : Z) : Prop :=
  exists l1 l2 i r, log = l1 ++ Completed t i seqno r :: l2 /\ nth i ids 0 = taskid /\ m_priority (msg_task ts i) = priority /\
    forall t', ~ completes_at ts ids taskid priority seqno l2 t'.

(** ** Proof *)
Section LOG.
Variable w : obs -> bool.
Hypothesis w_done : forall o, w o = true -> exists t i q r, o = Completed t i q r.

Definition ext (n : nat) (a b : canstate) : Prop := exists l, clog b = l ++ clog a /\ (length (filter w l) <= n)%nat.

Lemma ext_refl : forall a b, clog a = clog b -> ext 0 a b.
Proof. intros a b E. exists []. split; [symmetry; exact E|cbn; lia]. Qed.

Lemma ext_trans : forall n m a b c, ext n a b -> ext m b c -> ext (n + m) a c.
Proof.
  intros n m a b c (l & E & L) (l' & E' & L'). exists (l' ++ l). split; [rewrite E', E, app_assoc; reflexivity|].
  rewrite filter_app, app_length. lia.
Qed.

Lemma w_other : forall o, (forall t i q r, o <> Completed t i q r) -> w o = false.
Proof. intros o H. destruct (w o) eqn:E; [|reflexivity]. destruct (w_done o E) as (t & i & q & r & X). exfalso. apply (H _ _ _ _ X). Qed.

Lemma ext_ready : forall fuel ts boot a i b, can_add_ready fuel ts boot a i = Some b -> ext 0 a b.
Proof.
  induction fuel as [|f IH]; intros ts boot a i b H; [discriminate|]. cbn [can_add_ready] in H. cbv zeta in H.
  destruct (if m_critical (msg_task ts i) then is_omission boot (cjobs a i) else (false, cj_faults (cjobs a i))) as (om, fl).
  destruct om.
  - unfold can_completed, can_add_release in H. destruct (_ <=? _) in H.
    + injection H as <-. eexists [_]. split; [reflexivity|]. cbn [filter]. rewrite w_other by (intros; discriminate). cbn. lia.
    + apply IH in H. refine (ext_trans 0 0 _ _ _ _ H). eexists [_]. split; [reflexivity|]. cbn [filter]. rewrite w_other by (intros; discriminate). cbn. lia.
  - injection H as <-. eexists [_]. split; [reflexivity|]. cbn [filter]. rewrite w_other by (intros; discriminate). cbn. lia.
Qed.

Lemma ext_completed : forall fuel ts boot a i b, can_completed (can_add_ready fuel ts boot) ts a i = Some b -> ext 0 a b.
Proof.
  intros fuel ts boot a i b H. unfold can_completed, can_add_release in H. destruct (_ <=? _) in H.
  - injection H as <-. apply ext_refl. reflexivity.
  - apply ext_ready in H. exact H.
Qed.

Lemma ext_process : forall fuel pick ts boot a b, can_process_events fuel pick ts boot a = Some b -> ext 0 a b.
Proof.
  induction fuel as [|f IH]; intros pick ts boot a b H; [discriminate|]. cbn [can_process_events] in H.
  destruct (pop_min pick (cpops a) fst (cevents a)) as [((t, e), rest)|]; [|injection H as <-; apply ext_refl; reflexivity].
  cbn [fst snd] in H. destruct (cnow a <? t); [injection H as <-; apply ext_refl; reflexivity|].
  destruct e as [i|i k r|]; cbn [can_fire] in H.
  - destruct (can_add_ready f ts boot _ i) as [c|] eqn:E in H; [|discriminate]. apply ext_ready in E. apply IH in H. exact (ext_trans 0 0 _ _ _ E H).
  - apply IH in H. refine (ext_trans 0 0 _ _ _ _ H). eexists [_]. split; [reflexivity|]. cbn [filter]. rewrite w_other by (intros; discriminate). cbn. lia.
  - apply IH in H. exact H.
Qed.

Lemma ext_schedule : forall pick ts a, ext 0 a (can_schedule pick ts a).
Proof.
  intros pick ts a. unfold can_schedule. destruct (cbus a); [apply ext_refl; reflexivity|].
  destruct (pop_min pick (cpops a) _ (cpending a)) as [(i, rest)|]; [|apply ext_refl; reflexivity].
  eexists [_]. split; [reflexivity|]. cbn [filter]. rewrite w_other by (intros; discriminate). cbn. lia.
Qed.

Lemma ext_progress : forall fuel ts boot cb a t b, can_progress fuel ts boot cb a t = Some b -> ext 1 a b.
Proof.
  intros fuel ts boot cb a t b H. assert (U : forall x y, ext 0 x y -> ext 1 x y) by (intros x y (l & E & L); exists l; split; [exact E|lia]).
  unfold can_progress in H. destruct (cbus a) as [i|]; [|injection H as <-; apply U, ext_refl; reflexivity].
  cbv zeta in H. destruct (_ <=? _) in H; [|injection H as <-; apply U, ext_refl; reflexivity].
  destruct (is_retransmission _ _ _) as (hit, retr) in H. destruct hit.
  - injection H as <-. eexists [_; _]. split; [reflexivity|]. cbn [filter]. rewrite !w_other by (intros; discriminate). cbn. lia.
  - destruct (can_completed _ _ _ _) as [c|] eqn:E in H; [|discriminate]. injection H as <-. apply ext_completed in E.
    refine (ext_trans 1 0 _ _ _ _ (ext_trans 0 0 _ _ _ E (ext_refl _ _ eq_refl))).
    eexists [_]. split; [reflexivity|]. cbn [filter]. destruct (w _); cbn; lia.
Qed.

Lemma ext_advance : forall fuel pick ts boot cb a t b, can_advance_time fuel pick ts boot cb a t = Some b -> ext 1 a b.
Proof.
  intros fuel pick ts boot cb a t b H. unfold can_advance_time in H. destruct (can_progress fuel ts boot cb a t) as [c|] eqn:E1; [|discriminate].
  destruct (can_process_events fuel pick ts boot c) as [d|] eqn:E2; [|discriminate]. injection H as <-.
  exact (ext_trans 1 0 _ _ _ (ext_progress _ _ _ _ _ _ _ E1) (ext_trans 0 0 _ _ _ (ext_process _ _ _ _ _ _ E2) (ext_schedule _ _ _))).
Qed.

Lemma log_grows : forall fuel pick ts boot cb ab stop a b, can_simulate_until fuel pick ts boot cb ab stop a = Some b -> exists l, clog b = l ++ clog a.
Proof.
  induction fuel as [|f IH]; intros pick ts boot cb ab stop a b H; [discriminate|]. cbn [can_simulate_until] in H.
  destruct ((cnow a <=? stop) && negb (ab (clog a))); [|injection H as <-; exists []; reflexivity].
  destruct (pop_min pick (cpops a) fst (cevents a)) as [(e, x)|]; [|injection H as <-; exists []; reflexivity].
  destruct (can_advance_time f pick ts boot cb a (fst e)) as [c|] eqn:E; [|discriminate]. apply ext_advance in E. destruct E as (l & E & _).
  apply IH in H. destruct H as (l' & H). exists (l' ++ l). rewrite H, E, app_assoc. reflexivity.
Qed.

(** the aborted simulation is a prefix of the complete one, and ends right after the
    first wanted completion *)
Lemma prefix : forall fuel pick ts boot cb stop a b c, filter w (clog a) = [] ->
  can_simulate_until fuel pick ts boot cb (existsb w) stop a = Some b ->
  can_simulate_until fuel pick ts boot cb (fun _ => false) stop a = Some c ->
  (filter w (clog b) = [] -> c = b) /\ (exists l, clog c = l ++ clog b) /\ (length (filter w (clog b)) <= 1)%nat.
Proof.
  induction fuel as [|f IH]; intros pick ts boot cb stop a b c N H1 H2; [discriminate|]. cbn [can_simulate_until] in H1, H2.
  assert (X : existsb w (clog a) = false).
  { destruct (existsb w (clog a)) eqn:E; [|reflexivity]. apply existsb_exists in E. destruct E as (o & I & Ho).
    assert (In o (filter w (clog a))) by (apply filter_In; split; assumption). rewrite N in H. destruct H. }
  rewrite X in H1. destruct ((cnow a <=? stop) && negb false).
  - destruct (pop_min pick (cpops a) fst (cevents a)) as [(e, x)|].
    + destruct (can_advance_time f pick ts boot cb a (fst e)) as [d|] eqn:E; [|discriminate]. pose proof (ext_advance _ _ _ _ _ _ _ _ E) as (l & El & Ll).
      destruct (filter w (clog d)) as [|o r] eqn:F.
      * apply (IH pick ts boot cb stop d b c F H1 H2).
      * assert (Y : existsb w (clog d) = true).
        { apply existsb_exists. exists o. assert (Hi : In o (filter w (clog d))) by (rewrite F; left; reflexivity). apply filter_In in Hi. exact Hi. }
        assert (b = d) as ->.
        { destruct f; [discriminate|]. cbn [can_simulate_until] in H1. rewrite Y, andb_false_r in H1. injection H1 as <-. reflexivity. }
        split; [rewrite F; discriminate|]. split; [apply (log_grows _ _ _ _ _ _ _ _ _ H2)|]. rewrite El, filter_app, N, app_nil_r. exact Ll.
    + injection H1 as <-. injection H2 as <-. split; [reflexivity|]. split; [exists []; reflexivity|rewrite N; cbn; lia].
  - injection H1 as <-. injection H2 as <-. split; [reflexivity|]. split; [exists []; reflexivity|rewrite N; cbn; lia].
Qed.
End LOG.

Lemma wanted_iff : forall ts ids tid prio q o, wanted ts ids tid prio q o = true <->
  exists t i r, o = Completed t i q r /\ nth i ids 0 = tid /\ m_priority (msg_task ts i) = prio.
Proof.
  intros ts ids tid prio q o. split.
  - destruct o as [| |t i k r| | |]; cbn; try discriminate. rewrite !andb_true_iff, !Z.eqb_eq. intros ((<- & <-) & ->). exists t, i, r. auto.
  - intros (t & i & r & -> & <- & <-). cbn. rewrite !Z.eqb_refl. reflexivity.
Qed.

Lemma time_some : forall ts ids tid prio q log t, completion_time ts ids tid prio q log = Some t ->
  exists l1 l2 i r, log = l1 ++ Completed t i q r :: l2 /\ wanted ts ids tid prio q (Completed t i q r) = true.
Proof.
  induction log as [|o log IH]; intros t H; [discriminate|].
  assert (R : completion_time ts ids tid prio q log = Some t -> exists l1 l2 i r, o :: log = l1 ++ Completed t i q r :: l2 /\ wanted ts ids tid prio q (Completed t i q r) = true).
  { intros X. destruct (IH t X) as (l1 & l2 & i & r & -> & W). exists (o :: l1), l2, i, r. split; [reflexivity|exact W]. }
  cbn [completion_time] in H. destruct o as [| |t0 i k r| | |]; auto.
  destruct (wanted ts ids tid prio q (Completed t0 i k r)) eqn:W; [|auto]. injection H as <-.
  destruct (proj1 (wanted_iff _ _ _ _ _ _) W) as (t1 & i1 & r1 & E & _). injection E as <- <- -> <-. exists [], log, i, r. split; [reflexivity|exact W].
Qed.

Lemma time_none : forall ts ids tid prio q log, completion_time ts ids tid prio q log = None -> filter (wanted ts ids tid prio q) log = [].
Proof.
  induction log as [|o log IH]; intros H; [reflexivity|]. cbn [completion_time] in H. cbn [filter].
  destruct o as [| |t0 i k r| | |]; try (apply IH, H). destruct (wanted ts ids tid prio q (Completed t0 i k r)); [discriminate|apply IH, H].
Qed.

Lemma filter_none : forall A (w : A -> bool) l, filter w l = [] -> forall x, In x l -> w x = true -> False.
Proof. intros A w l H x I W. assert (In x (filter w l)) by (apply filter_In; auto). rewrite H in H0. exact H0. Qed.

(** Completing the simulation instead of aborting it would show: the first completion
    of the instance is at the time returned, or there is none. *)
Theorem C80_completion : forall fuel pick ts ids boot stop taskid priority seqno res st,
  get_job_completion_time fuel pick ts ids boot stop taskid priority seqno = Some res ->
  can_simulation fuel pick ts boot (fun _ faults => faults) (fun _ => false) (fun _ => []) [] stop = Some st ->
  match res with
  | Some t => first_completes_at ts ids taskid priority seqno (clog st) t
  | None => forall t, ~ completes_at ts ids taskid priority seqno (clog st) t
  end.
Proof.
  intros fuel pick ts ids boot stop tid prio q res st H H2. unfold get_job_completion_time in H.
  destruct (can_simulation fuel pick ts boot (fun _ faults => faults) (stats_aborted ts ids tid prio q) (fun _ => []) [] stop) as [b|] eqn:E; [|discriminate].
  injection H as <-. unfold can_simulation in E, H2. rewrite add_jobs_events in E, H2 by (cbn; auto).
  set (w := wanted ts ids tid prio q).
  assert (Wd : forall o, w o = true -> exists t i k r, o = Completed t i k r).
  { intros o Ho. apply wanted_iff in Ho. destruct Ho as (t & i & r & -> & _). exists t, i, q, r. reflexivity. }
  pose proof (fun N => prefix w Wd fuel pick ts boot _ stop _ b st N E H2) as P. specialize (P eq_refl). destruct P as (P1 & (l & P2) & P3).
  destruct (completion_time ts ids tid prio q (clog b)) as [t|] eqn:C.
  - destruct (time_some _ _ _ _ _ _ _ C) as (l1 & l2 & i & r & El & W). destruct (proj1 (wanted_iff _ _ _ _ _ _) W) as (t1 & i1 & r1 & X & Y & Y2).
    injection X as <- <- <-. exists (l ++ l1), l2, i, r. split; [rewrite P2, El, app_assoc; reflexivity|]. split; [exact Y|]. split; [exact Y2|].
    intros t' (i' & r' & I & A & B). rewrite El, filter_app, app_length in P3. cbn [filter] in P3. unfold w in P3. rewrite W in P3. cbn [length] in P3.
    apply (filter_none _ (wanted ts ids tid prio q) l2) with (x := Completed t' i' q r'); [|exact I|apply wanted_iff; exists t', i', r'; auto].
    apply length_zero_iff_nil. lia.
  - apply time_none in C. rewrite (P1 C). intros t (i & r & I & A & B). apply (filter_none _ _ _ C _ I). apply wanted_iff. exists t, i, r. auto.
Qed.
Print Assumptions C80_completion.

(** A time returned lies within one period, counted from one time unit before the
    release of the instance, plus the cost. *)
Theorem C80_window : forall fuel pick ts ids boot stop taskid priority seqno t,
  (forall t, In t ts -> 0 < m_cost t /\ 0 < m_period t) ->
  get_job_completion_time fuel pick ts ids boot stop taskid priority seqno = Some (Some t) ->
  exists i, nth i ids 0 = taskid /\ m_priority (msg_task ts i) = priority /\
    (seqno - 1) * m_period (msg_task ts i) - 1 + m_cost (msg_task ts i) <= t < seqno * m_period (msg_task ts i) - 1 + m_cost (msg_task ts i).
Proof.
  intros fuel pick ts ids boot stop tid prio q t Hp H. unfold get_job_completion_time in H.
  destruct (can_simulation fuel pick ts boot (fun _ faults => faults) (stats_aborted ts ids tid prio q) (fun _ => []) [] stop) as [b|] eqn:E; [|discriminate].
  injection H as H. destruct (time_some _ _ _ _ _ _ _ H) as (l1 & l2 & i & r & El & W). apply wanted_iff in W. destruct W as (t1 & i1 & r1 & X & Y & Y2).
  injection X as <- <- <-. exists i. split; [exact Y|]. split; [exact Y2|].
  assert (Hcb : forall (l : list obs) (x : list Z), incl x x) by (intros; apply incl_refl).
  destruct (C75_frames _ _ _ _ _ _ _ _ _ _ l1 l2 t i q r Hp ltac:(constructor) Hcb E) as (F & _). destruct (F El) as (F1 & _).
  assert (F2 : In (Scheduled (t - m_cost (msg_task ts i)) i q r) (clog b)) by (rewrite El; apply in_or_app; right; right; exact F1).
  destruct (C76_newest _ _ _ _ _ _ _ _ _ _ _ _ _ _ Hp ltac:(constructor) Hcb E F2) as (G1 & G2). lia.
Qed.
Print Assumptions C80_window.

(** It returns if costs and periods are positive. *)
Theorem C80_terminates : forall pick ts ids boot stop taskid priority seqno,
  (forall t, In t ts -> 0 < m_cost t /\ 0 < m_period t) ->
  exists fuel res, forall fuel', (fuel <= fuel')%nat -> get_job_completion_time fuel' pick ts ids boot stop taskid priority seqno = Some res.
Proof.
  intros pick ts ids boot stop tid prio q Hp.
  destruct (C75_terminates pick ts boot (fun _ l => l) (stats_aborted ts ids tid prio q) (fun _ => []) [] stop Hp ltac:(constructor) ltac:(intros; apply incl_refl)) as (f & st & T).
  exists f, (completion_time ts ids tid prio q (clog st)). intros f' L. unfold get_job_completion_time. rewrite T by exact L. reflexivity.
Qed.
Print Assumptions C80_terminates.

(** The value returned can be uninitialised although the simulation runs past the next
    releases of the message: the instance is replaced before its transmission. *)
Theorem C80_initialised_refuted : exists fuel pick ts ids boot stop taskid priority seqno i,
  (forall t, In t ts -> 0 < m_cost t /\ 0 < m_period t) /\ (i < length ts)%nat /\ nth i ids 0 = taskid /\ m_priority (msg_task ts i) = priority /\
  0 < seqno /\ (seqno + 1) * m_period (msg_task ts i) < stop /\
  get_job_completion_time fuel pick ts ids boot stop taskid priority seqno = Some None.
Proof.
  exists 200%nat, (fun _ => 0%nat), early_set, [1; 2], 0, 60, 2, (m_priority (msg_task early_set 1)), 1, 1%nat.
  split; [intros t [<-|[<-|[]]]; cbn; lia|]. split; [cbn; lia|]. repeat split; vm_compute; reflexivity.
Qed.
Print Assumptions C80_initialised_refuted.

(** The second instance of the second message. *)
Example C80_sample :
  (forall t, In t run_set -> 0 < m_cost t /\ 0 < m_period t) /\
  get_job_completion_time 100 (fun _ => 0%nat) run_set [1; 2] 5 120 2 1 2 = Some (Some 62) /\
  option_map (fun st => length (clog st)) (can_simulation 100 (fun _ => 0%nat) run_set 5 (fun _ l => l) (fun _ => false) (fun _ => []) [] 120) <> None.
Proof. split; [intros t [<-|[<-|[]]]; cbn; lia|]. split; vm_compute; [reflexivity|discriminate]. Qed.
