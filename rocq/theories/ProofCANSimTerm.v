(** C75: the simulation ends. *)
From Coq Require Import ZArith List Bool Lia Sorted.
From Verif Require Import Base ModelCANSim SpecCANSim ProofCANSim.
Import ListNotations.
Open Scope Z_scope.

(** * More fuel does not change a result *)

Lemma add_ready_more : forall f ts bt st i st' f',
  can_add_ready f ts bt st i = Some st' -> (f <= f')%nat -> can_add_ready f' ts bt st i = Some st'.
Proof.
  induction f as [|f IH]; intros ts bt st i st' f' H Hf; [discriminate|].
  destruct f' as [|f']; [lia|]. cbn [can_add_ready] in *.
  destruct (if m_critical _ then _ else _) as [om hf]. destruct om; [|exact H].
  unfold can_completed, can_add_release in *. destruct (_ <=? _); [exact H|].
  apply IH; [exact H|lia].
Qed.

Lemma fire_more : forall f ts bt st e st' f',
  can_fire f ts bt st e = Some st' -> (f <= f')%nat -> can_fire f' ts bt st e = Some st'.
Proof. intros f ts bt st [i|i k r|] st' f' H Hf; cbn in *; auto. eapply add_ready_more; eauto. Qed.

Lemma process_more : forall f pick ts bt st st' f',
  can_process_events f pick ts bt st = Some st' -> (f <= f')%nat -> can_process_events f' pick ts bt st = Some st'.
Proof.
  induction f as [|f IH]; intros pick ts bt st st' f' H Hf; [discriminate|].
  destruct f' as [|f']; [lia|]. cbn [can_process_events] in *.
  destruct (pop_min _ _ _ _) as [[e rest]|]; [|exact H]. destruct (_ <? _); [exact H|].
  destruct (can_fire f _ _ _ _) as [st1|] eqn:E; [|discriminate].
  rewrite (fire_more _ _ _ _ _ _ f' E ltac:(lia)). apply IH; [exact H|lia].
Qed.

Lemma progress_more : forall f ts bt cb st t st' f',
  can_progress f ts bt cb st t = Some st' -> (f <= f')%nat -> can_progress f' ts bt cb st t = Some st'.
Proof.
  intros f ts bt cb st t st' f' H Hf. unfold can_progress in *. destruct (cbus st); [|exact H].
  destruct (_ <=? _); [|exact H]. destruct (is_retransmission _ _ _) as [hit retr]. destruct hit; [exact H|].
  unfold can_completed, can_add_release in *. cbv zeta in *. destruct (_ <=? _); [exact H|].
  match type of H with match ?x with _ => _ end = _ => destruct x as [st5|] eqn:E; [|discriminate] end.
  rewrite (add_ready_more _ _ _ _ _ _ f' E Hf). exact H.
Qed.

Lemma advance_more : forall f pick ts bt cb st t st' f',
  can_advance_time f pick ts bt cb st t = Some st' -> (f <= f')%nat -> can_advance_time f' pick ts bt cb st t = Some st'.
Proof.
  intros f pick ts bt cb st t st' f' H Hf. unfold can_advance_time in *.
  destruct (can_progress f _ _ _ _ _) as [st1|] eqn:E1; [|discriminate]. rewrite (progress_more _ _ _ _ _ _ _ f' E1 Hf).
  destruct (can_process_events f _ _ _ _) as [st2|] eqn:E2; [|discriminate].
  rewrite (process_more _ _ _ _ _ _ f' E2 Hf). exact H.
Qed.

(** * The events to process get fewer *)

(** an upper bound on the events that an event due at [now] stands for *)
Definition weight (now : Z) (e : Z * canevent) : nat :=
  if now <? fst e then 0%nat
  else match snd e with EvRelease _ => 2 * Z.to_nat (now - fst e) + 2 | _ => 1 end.

Definition weights (now : Z) (l : list (Z * canevent)) : nat := list_sum (map (weight now) l).

Lemma weights_app : forall now a b, weights now (a ++ b) = (weights now a + weights now b)%nat.
Proof. intros. unfold weights. rewrite map_app. apply list_sum_app. Qed.

Lemma weights_one : forall now e, weights now [e] = weight now e.
Proof. intros. unfold weights. cbn. lia. Qed.

Lemma weight_other : forall now t e, (forall i, e <> EvRelease i) -> (weight now (t, e) <= 1)%nat.
Proof.
  intros now t e H. unfold weight. cbn. destruct (now <? t); [lia|]. destruct e; try lia. exfalso. eapply H. reflexivity.
Qed.

Lemma add_ready_ok : forall f ts bt st i,
  positive ts -> cj_release (cjobs st i) <= cnow st -> (Z.to_nat (cnow st - cj_release (cjobs st i)) < f)%nat ->
  exists st', can_add_ready f ts bt st i = Some st' /\
    (weights (cnow st) (cevents st') <= weights (cnow st) (cevents st) + 2 * Z.to_nat (cnow st - cj_release (cjobs st i)) + 1)%nat.
Proof.
  induction f as [|f IH]; intros ts bt st i Hpos Hr Hf; [lia|]. cbn [can_add_ready].
  destruct (positive_task ts i Hpos) as (_ & Hp).
  destruct (if m_critical _ then _ else _) as [om hf]. destruct om.
  - unfold can_completed, can_add_release.
    set (st3 := put_job (notify _ Omitted i) i _).
    assert (E1 : cj_release (cjobs st3 i) = cj_release (cjobs st i) + m_period (msg_task ts i)).
    { unfold st3. cbn. rewrite !PeanoNat.Nat.eqb_refl. cbn. lia. }
    assert (E2 : cnow st3 = cnow st) by reflexivity.
    assert (E3 : (weights (cnow st) (cevents st3) <= weights (cnow st) (cevents st) + 1)%nat).
    { unfold st3. cbn [put_job notify push_event cevents]. rewrite weights_app, weights_one.
      pose proof (weight_other (cnow st) (cj_release (cjobs st i) + m_deadline (msg_task ts i))
        (EvDeadline i (cj_seqno (cjobs st i)) (cj_release (cjobs st i))) ltac:(discriminate)). lia. }
    destruct (cnow st3 <=? cj_release (cjobs st3 i)) eqn:E.
    + eexists. split; [reflexivity|]. apply Z.leb_le in E. cbn [push_event cevents]. rewrite weights_app, weights_one.
      change (cj_release (cjobs (put_job _ i _) i)) with (cj_release (cjobs st3 i)).
      unfold weight. cbn [fst snd]. destruct (cnow st <? cj_release (cjobs st3 i)) eqn:E4; [lia|].
      apply Z.ltb_ge in E4. lia.
    + apply Z.leb_gt in E. destruct (IH ts bt st3 i Hpos ltac:(lia) ltac:(lia)) as (st' & A & B).
      exists st'. split; [exact A|]. rewrite E2, E1 in B. lia.
  - eexists. split; [reflexivity|]. cbn [notify push_pending put_job push_event cevents].
    rewrite weights_app, weights_one.
    pose proof (weight_other (cnow st) (cj_release (cjobs st i) + m_deadline (msg_task ts i))
        (EvDeadline i (cj_seqno (cjobs st i)) (cj_release (cjobs st i))) ltac:(discriminate)). lia.
Qed.

Lemma add_ready_now : forall f ts bt st i st', can_add_ready f ts bt st i = Some st' -> cnow st' = cnow st.
Proof.
  induction f as [|f IH]; intros ts bt st0 i0 st' H; cbn [can_add_ready] in H; [discriminate|].
  destruct (if m_critical _ then _ else _) as [om hf0]. destruct om.
  - unfold can_completed, can_add_release in H. destruct (_ <=? _); [injection H as <-; reflexivity|].
    apply IH in H. exact H.
  - injection H as <-. reflexivity.
Qed.

Lemma process_ok : forall f pick ts fs st b,
  positive ts -> Rel ts fs None st b -> (weights (cnow st) (cevents st) < f)%nat ->
  exists st', can_process_events f pick ts (boot fs) st = Some st' /\ cnow st' = cnow st.
Proof.
  induction f as [|f IH]; intros pick ts fs st b Hpos R Hf; [lia|]. cbn [can_process_events].
  destruct (pop_min pick (cpops st) fst (cevents st)) as [[e rest]|] eqn:E; [|eauto].
  apply pop_min_some in E. destruct E as (_ & l1 & l2 & He & ->).
  destruct (cnow st <? fst e) eqn:E2; [eauto|]. apply Z.ltb_ge in E2.
  set (st0 := CANState (cnow st) (cbus st) (cpending st) (l1 ++ l2) (cjobs st) (cretr st) (S (cpops st)) (clog st)).
  assert (Hw : weights (cnow st) (cevents st) = (weights (cnow st) (cevents st0) + weight (cnow st) e)%nat).
  { rewrite He. cbn [st0 cevents]. change (e :: l2) with ([e] ++ l2). rewrite !weights_app, weights_one. lia. }
  assert (Hfire : exists st1, can_fire f ts (boot fs) st0 (snd e) = Some st1 /\ cnow st1 = cnow st /\
            (weights (cnow st) (cevents st1) < weights (cnow st) (cevents st))%nat).
  { assert (Hin : In e (cevents st)) by (rewrite He; apply in_elt).
    destruct e as [t ev]. cbn [fst snd] in *. unfold weight in Hw. cbn [fst snd] in Hw.
    apply Z.ltb_ge in E2. rewrite E2 in Hw. apply Z.ltb_ge in E2.
    destruct ev as [i|i k r|]; cbn [can_fire].
    - destruct (r_ev _ _ _ _ _ R _ _ Hin) as (_ & _ & ->).
      destruct (add_ready_ok f ts (boot fs) st0 i Hpos ltac:(cbn; lia) ltac:(cbn [st0 cnow cjobs]; lia)) as (st1 & A & B).
      exists st1. split; [exact A|]. split; [apply add_ready_now in A; exact A|].
      cbn [st0 cnow cjobs] in B. cbn [st0] in Hw. lia.
    - eexists. split; [reflexivity|]. split; [reflexivity|]. cbn [cevents]. cbn [st0 cevents] in *. lia.
    - eexists. split; [reflexivity|]. split; [reflexivity|]. lia. }
  destruct Hfire as (st1 & F1 & F2 & F3). fold st0. rewrite F1.
  destruct (rel_fire _ _ _ _ _ _ _ _ _ _ Hpos R He E2 F1) as (b1 & R1 & _).
  destruct (IH pick ts fs st1 b1 Hpos R1 ltac:(rewrite F2; lia)) as (st' & A & B).
  exists st'. split; [exact A|congruence].
Qed.

Lemma progress_ok : forall ts bt cb st t, positive ts ->
  exists f st', can_progress f ts bt cb st t = Some st' /\ t <= cnow st'.
Proof.
  intros ts bt cb st t Hpos. unfold can_progress. destruct (cbus st) as [i|].
  2: { exists O. eexists. split; [reflexivity|]. cbn. lia. }
  cbv zeta. destruct (_ <=? _).
  2: { exists O. eexists. split; [reflexivity|]. cbn. lia. }
  destruct (is_retransmission _ _ _) as [hit retr]. destruct hit.
  { exists O. eexists. split; [reflexivity|]. cbn. lia. }
  unfold can_completed, can_add_release.
  match goal with |- context [can_add_ready _ _ _ ?s i] => set (st4 := s) end.
  destruct (cnow st4 <=? cj_release (cjobs st4 i)) eqn:E.
  { exists O. eexists. split; [reflexivity|]. cbn. lia. }
  apply Z.leb_gt in E.
  destruct (add_ready_ok (S (Z.to_nat (cnow st4 - cj_release (cjobs st4 i)))) ts bt st4 i Hpos ltac:(lia) ltac:(lia)) as (st5 & A & _).
  eexists. eexists. rewrite A. split; [reflexivity|]. apply add_ready_now in A. cbn [delay cnow]. rewrite A. cbn. lia.
Qed.

Lemma advance_ok : forall pick ts fs cb st b e r,
  positive ts -> callback_ok fs cb -> Settled ts fs st b -> pop_min pick (cpops st) fst (cevents st) = Some (e, r) ->
  exists f st', can_advance_time f pick ts (boot fs) cb st (fst e) = Some st' /\ fst e <= cnow st' /\
    (forall e', In e' (cevents st') -> cnow st' < fst e').
Proof.
  intros pick ts fs cb st b e r Hpos Hcb Hs Hp.
  apply pop_min_some in Hp. destruct Hp as (Hmin & l1 & l2 & Hl & _).
  assert (Hin : In e (cevents st)) by (rewrite Hl; apply in_elt).
  destruct (progress_ok ts (boot fs) cb st (fst e) Hpos) as (f1 & st1 & E1 & N1).
  destruct (rel_progress _ _ _ _ _ _ _ _ Hpos Hcb Hs Hmin (proj1 (proj2 Hs) e Hin) E1) as (b1 & R1 & _).
  destruct (process_ok (S (weights (cnow st1) (cevents st1))) pick ts fs st1 b1 Hpos R1 ltac:(lia)) as (st2 & E2 & N2).
  destruct (rel_process _ _ _ _ _ _ _ Hpos R1 E2) as (_ & Hall).
  exists (f1 + S (weights (cnow st1) (cevents st1)))%nat, (can_schedule pick ts st2).
  unfold can_advance_time.
  rewrite (progress_more _ _ _ _ _ _ _ (f1 + S (weights (cnow st1) (cevents st1)))%nat E1 ltac:(lia)).
  rewrite (process_more _ _ _ _ _ _ (f1 + S (weights (cnow st1) (cevents st1)))%nat E2 ltac:(lia)).
  split; [reflexivity|].
  assert (Q : cnow (can_schedule pick ts st2) = cnow st2 /\ forall e', In e' (cevents (can_schedule pick ts st2)) ->
            In e' (cevents st2) \/ exists i, cbus st2 = None /\ In i (cpending st2) /\
              fst e' = m_cost (msg_task ts i) - cj_alloc (cjobs st2 i) + cnow st2).
  { unfold can_schedule. destruct (cbus st2) eqn:Eb; [auto|].
    destruct (pop_min _ _ _ _) as [[i rest]|] eqn:Ep; [|auto]. split; [reflexivity|].
    cbn. intros e' He'. apply in_app_or in He'. destruct He' as [He'|[<-|[]]]; [auto|].
    right. exists i. apply pop_min_some in Ep. destruct Ep as (_ & k1 & k2 & Hk & _).
    split; [reflexivity|]. split; [rewrite Hk; apply in_elt|]. cbn. unfold update_seqno.
    destruct (_ <? _); reflexivity. }
  destruct Q as (Q1 & Q2). rewrite Q1, N2. split; [exact N1|].
  intros e' He'. destruct (Q2 e' He') as [A|(i & A & B & ->)].
  - specialize (Hall e' A). lia.
  - destruct (rel_process _ _ _ _ _ _ _ Hpos R1 E2) as ((b2 & R2 & _) & _).
    destruct (proj1 (r_pend _ _ _ _ _ R2 i) B) as (Hi & Hw).
    destruct (r_job _ _ _ _ _ R2 i Hi) as (_ & _ & J). rewrite J by congruence.
    pose proof (positive_task ts i Hpos). lia.
Qed.

Lemma simulate_ok : forall n pick ts fs cb ab stop st b,
  positive ts -> callback_ok fs cb -> Settled ts fs st b -> (forall e, In e (cevents st) -> cnow st < fst e) ->
  (Z.to_nat (stop - cnow st + 1) <= n)%nat ->
  exists F st', forall f, (F <= f)%nat -> can_simulate_until f pick ts (boot fs) cb ab stop st = Some st'.
Proof.
  induction n as [|n IH]; intros pick ts fs cb ab stop st b Hpos Hcb Hs Hlt Hn.
  - exists 1%nat, st. intros f Hf. destruct f as [|f]; [lia|]. cbn [can_simulate_until].
    destruct (cnow st <=? stop) eqn:E; [apply Z.leb_le in E; lia|]. reflexivity.
  - destruct ((cnow st <=? stop) && negb (ab (clog st))) eqn:E0.
    2: { exists 1%nat, st. intros f Hf. destruct f as [|f]; [lia|]. cbn [can_simulate_until]. rewrite E0. reflexivity. }
    destruct (pop_min pick (cpops st) fst (cevents st)) as [[e r]|] eqn:E.
    2: { exists 1%nat, st. intros f Hf. destruct f as [|f]; [lia|]. cbn [can_simulate_until]. rewrite E0, E. reflexivity. }
    destruct (advance_ok _ _ _ _ _ _ _ _ Hpos Hcb Hs E) as (f1 & st1 & A1 & A2 & A3).
    destruct (settled_advance _ _ _ _ _ _ _ _ _ _ Hpos Hcb Hs E A1) as (b1 & S1).
    assert (Hin : In e (cevents st)).
    { apply pop_min_some in E. destruct E as (_ & l1 & l2 & Hl & _). rewrite Hl. apply in_elt. }
    specialize (Hlt e Hin). apply andb_true_iff in E0. destruct E0 as (E1 & E2). pose proof E1 as E1'. apply Z.leb_le in E1'.
    destruct (IH pick ts fs cb ab stop st1 b1 Hpos Hcb S1 A3 ltac:(lia)) as (F & st' & HF).
    exists (S (f1 + F)), st'. intros f Hf. destruct f as [|f]; [lia|]. cbn [can_simulate_until].
    rewrite E1, E2, E. cbn [andb]. rewrite (advance_more _ _ _ _ _ _ _ _ f A1 ltac:(lia)). apply HF. lia.
Qed.

Lemma simulation_ok : forall pick ts fs cb ab stop,
  positive ts -> callback_ok fs cb -> StronglySorted Z.le (wire_faults fs) ->
  (same fs -> forall j, StronglySorted Z.le (host_faults fs j)) ->
  exists F st, forall f, (F <= f)%nat ->
    can_simulation f pick ts (boot fs) cb ab (host_faults fs) (wire_faults fs) stop = Some st.
Proof.
  intros pick ts fs cb ab stop Hpos Hcb Hso Hho.
  set (st0 := CANState 0 None [] (map (fun i => (0, EvRelease i)) (seq 0 (length ts))) (fun i => CANJob 0 0 1 (host_faults fs i)) (wire_faults fs) 0 []).
  assert (Hadd : forall f, can_simulation f pick ts (boot fs) cb ab (host_faults fs) (wire_faults fs) stop
     = can_simulate_until f pick ts (boot fs) cb ab stop st0).
  { intros f. unfold can_simulation. rewrite add_jobs_events by reflexivity. reflexivity. }
  destruct (simulation_settled 1 pick ts fs cb (fun _ => true) (-1) st0 Hpos Hcb Hso Hho) as (b & Hs).
  { unfold can_simulation. rewrite add_jobs_events by reflexivity. reflexivity. }
  destruct ((cnow st0 <=? stop) && negb (ab (clog st0))) eqn:E0.
  2: { exists 1%nat, st0. intros f Hf. rewrite Hadd. destruct f as [|f]; [lia|]. cbn [can_simulate_until]. rewrite E0. reflexivity. }
  destruct (pop_min pick (cpops st0) fst (cevents st0)) as [[e r]|] eqn:E.
  2: { exists 1%nat, st0. intros f Hf. rewrite Hadd. destruct f as [|f]; [lia|]. cbn [can_simulate_until]. rewrite E0, E. reflexivity. }
  destruct (advance_ok _ _ _ _ _ _ _ _ Hpos Hcb Hs E) as (f1 & st1 & A1 & A2 & A3).
  destruct (settled_advance _ _ _ _ _ _ _ _ _ _ Hpos Hcb Hs E A1) as (b1 & S1).
  destruct (simulate_ok (Z.to_nat (stop - cnow st1 + 1)) pick ts fs cb ab stop st1 b1 Hpos Hcb S1 A3 ltac:(lia)) as (F & st' & HF).
  exists (S (f1 + F)), st'. intros f Hf. rewrite Hadd. destruct f as [|f]; [lia|]. cbn [can_simulate_until].
  rewrite E0, E. rewrite (advance_more _ _ _ _ _ _ _ _ f A1 ltac:(lia)). apply HF. lia.
Qed.
