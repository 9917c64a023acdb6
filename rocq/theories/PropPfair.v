(** C37: the Pfair schedulability test. *)
From Coq Require Import ZArith QArith List Bool Lia Arith.
From Verif Require Import Base ModelTasks ModelPfair SpecUni SpecQPA SpecGlobal SpecPfair ProofPfair.
Import ListNotations.
Open Scope Z_scope.

(** An accepted task set can be scheduled in quanta: for every legal sporadic job
    sequence and every horizon there is a schedule on [m] processors that meets
    all deadlines. *)
Theorem C37_sound : forall m ts, (forall t, In t ts -> 0 < t_period t) ->
  pf_is_schedulable (Z.of_nat m) ts = true -> quantum_feasible (map e_of ts) m.
Proof.
  intros m ts POS A s LEG N. apply andb_true_iff in A. destruct A as [A1 A2]. apply Qle_bool_iff in A1. rewrite forallb_forall in A2.
  assert (CT : forall t, In t ts -> t_period t <= t_deadline t /\ t_cost t <= t_period t).
  { intros t Ht. specialize (A2 t Ht). apply andb_true_iff in A2. destruct A2 as [B1 B2]. apply Z.leb_le in B1, B2. auto. }
  destruct (sufficient ts m s N POS (fun t Ht => proj2 (CT t Ht)) A1 LEG) as [sc [V D]]. exists sc. rewrite map_length. split; [exact V|].
  intros [i k] e He HN. cbn [fst snd] in *. rewrite nth_error_map in He. destruct (nth_error ts i) as [t|] eqn:E; [|discriminate]. injection He as <-. cbn [e_of e_deadline] in *.
  assert (Hi : (i < length ts)%nat) by (apply nth_error_Some; congruence). assert (Et : tk ts i = t) by (apply nth_error_nth; exact E). pose proof (nth_error_In _ _ E) as It. pose proof (CT t It). pose proof (POS t It).
  exists (arr s i k + per ts i)%nat. cbn [fst snd]. unfold per. rewrite Et. split; [lia|]. specialize (D i k Hi). unfold per in D. rewrite Et in D. apply D. lia.
Qed.
Print Assumptions C37_sound.

(** For deadlines that are not constrained the test is exact. *)
Theorem C37_exact : forall m ts, (forall t, In t ts -> 0 < t_period t /\ 0 <= t_cost t /\ t_period t <= t_deadline t) ->
  (pf_is_schedulable (Z.of_nat m) ts = true <-> quantum_feasible (map e_of ts) m).
Proof.
  intros m ts W. split; [apply C37_sound; intros t Ht; apply (W t Ht)|]. intros F.
  destruct (necessary ts m (fun t Ht => proj1 (W t Ht)) (fun t Ht => proj1 (proj2 (W t Ht))) F) as [U CT].
  apply andb_true_iff. split; [apply Qle_bool_iff; exact U|]. apply forallb_forall. intros t Ht. apply andb_true_iff. split; apply Z.leb_le; [apply (W t Ht)|apply (CT t Ht)].
Qed.
Print Assumptions C37_exact.

(** Constrained deadlines are always rejected. *)
Theorem C37_constrained_rejected : forall m ts t, In t ts -> t_deadline t < t_period t -> pf_is_schedulable m ts = false.
Proof.
  intros m ts t Ht L. apply not_true_iff_false. intros A. apply andb_true_iff in A. destruct A as [_ A]. rewrite forallb_forall in A. specialize (A t Ht). apply andb_true_iff in A. destruct A as [A _]. apply Z.leb_le in A. lia.
Qed.
Print Assumptions C37_constrained_rejected.

(** The verdict of bound_response_times: true exactly if every job can complete
    within one period of its task, whatever the deadlines; then the period is
    recorded as response time of every task, otherwise nothing is recorded. *)
Theorem C37_response_times : forall m ts b ts', (forall e, In e ts -> 0 < t_period (fst e) /\ 0 <= t_cost (fst e)) ->
  pf_bound_response_times (Z.of_nat m) ts = (b, ts') ->
  map fst ts' = map fst ts /\
  (b = true <-> quantum_feasible (map (fun e => ETask (t_cost (fst e)) (t_period (fst e)) (t_period (fst e))) ts) m) /\
  (b = true -> forall e, In e ts' -> snd e = Some (t_period (fst e))) /\
  (b = false -> ts' = ts).
Proof.
  intros m ts b ts' W E. set (im := map (fun e => Task (t_cost (fst e)) (t_period (fst e)) (t_period (fst e))) ts).
  assert (EQ : pf_has_bounded_tardiness (Z.of_nat m) (map fst ts) = pf_is_schedulable (Z.of_nat m) im).
  { unfold pf_has_bounded_tardiness, pf_is_schedulable, im. f_equal.
    - cbn [ts_utilization]. rewrite !map_map. reflexivity.
    - clear. induction ts as [|e l IH]; [reflexivity|]. cbn [map forallb]. rewrite IH. cbn [t_period t_deadline t_cost]. rewrite Z.leb_refl. reflexivity. }
  assert (EX : pf_is_schedulable (Z.of_nat m) im = true <-> quantum_feasible (map (fun e => ETask (t_cost (fst e)) (t_period (fst e)) (t_period (fst e))) ts) m).
  { replace (map (fun e => ETask (t_cost (fst e)) (t_period (fst e)) (t_period (fst e))) ts) with (map e_of im) by (unfold im; rewrite map_map; reflexivity).
    apply C37_exact. intros t Ht. unfold im in Ht. apply in_map_iff in Ht. destruct Ht as [e [<- He]]. cbn [t_period t_deadline t_cost]. pose proof (W e He). lia. }
  unfold pf_bound_response_times in E. rewrite EQ in E. destruct (pf_is_schedulable (Z.of_nat m) im); injection E as <- <-.
  - split; [rewrite map_map; reflexivity|]. split; [rewrite <- EX; tauto|]. split; [|discriminate]. intros _ e He. apply in_map_iff in He. destruct He as [x [<- Hx]]. reflexivity.
  - split; [reflexivity|]. split; [rewrite <- EX; split; discriminate|]. split; [discriminate|reflexivity].
Qed.
Print Assumptions C37_response_times.

(** three tasks of utilization 2/3 on two processors, which no partition can host *)
Definition pf_ex := [Task 2 3 3; Task 2 3 4; Task 4 6 6].

Example C37_case : (forall t, In t pf_ex -> 0 < t_period t /\ 0 <= t_cost t /\ t_period t <= t_deadline t) /\
  pf_is_schedulable 2 pf_ex = true /\ pf_is_schedulable 1 pf_ex = false /\
  pf_is_schedulable 2 (Task 1 100 100 :: pf_ex) = false /\
  pf_bound_response_times 2 (map (fun t => (t, None)) (Task 2 3 2 :: tl pf_ex)) = (true, [(Task 2 3 2, Some 3); (Task 2 3 4, Some 3); (Task 4 6 6, Some 6)]).
Proof.
  split; [intros t [<-|[<-|[<-|[]]]]; cbn; lia|]. repeat split; vm_compute; reflexivity.
Qed.

(** the hypotheses on the job sequence can be met *)
Example C37_case_jobs : legal_edf (map e_of pf_ex) (periodic pf_ex).
Proof. apply periodic_legal; intros t [<-|[<-|[<-|[]]]]; cbn; lia. Qed.
