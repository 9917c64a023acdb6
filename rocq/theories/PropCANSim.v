(** C75, C76: the CAN bus simulator. *)
From Coq Require Import ZArith List Bool Lia Sorted.
From Verif Require Import Base ModelCANSim SpecCANSim ProofCANSim ProofCANSimTerm.
Import ListNotations.
Open Scope Z_scope.

(** the environment of a run: the failures of the hosts stay the same if the
    callback job_completed takes none away and they are in order of time *)
Definition run_env (cb : list obs -> list Z -> list Z) (boot_time : Z) (hosts : nat -> list Z) (faults : list Z) : env :=
  Env faults hosts boot_time ((forall l x, cb l x = x) /\ forall j, StronglySorted Z.le (hosts j)).

(** C75: whatever the messages, the faults and the order of equal elements in the
    queues, the callbacks of the simulator see a run of the bus of SpecCANSim.v. *)
Theorem C75_refines : forall fuel pick ts boot cb ab hosts faults stop st,
  (forall t, In t ts -> 0 < m_cost t /\ 0 < m_period t) -> StronglySorted Z.le faults ->
  (forall l x, incl (cb l x) x) ->
  can_simulation fuel pick ts boot cb ab hosts faults stop = Some st ->
  exists b, bus_run ts (run_env cb boot hosts faults) bus_init (clog st) b /\ clock b = cnow st /\
    (forall j, In j (cpending st) <-> (j < length ts)%nat /\ at_ b j = Waiting) /\
    (forall i, cbus st = Some i <-> exists s, wire b = Busy i s) /\
    (cbus st = None -> cpending st = []).
Proof.
  intros fuel pick ts boot cb ab hf fs stop st Hpos Hso Hcb H.
  destruct (simulation_settled _ _ _ (run_env cb boot hf fs) _ _ _ _ Hpos (conj Hcb (fun E => proj1 E)) Hso (fun E => proj2 E) H) as (b & R & _ & Hidle & _).
  exists b. split; [exact (r_run _ _ _ _ _ R)|]. split; [exact (r_clock _ _ _ _ _ R)|].
  split; [exact (r_pend _ _ _ _ _ R)|]. split; [|exact Hidle].
  intros i. pose proof (r_wire _ _ _ _ _ R) as W. destruct (cbus st) as [i0|].
  - destruct W as (s & W & _). rewrite W. split; [intros E; injection E as ->; eauto|intros (s' & E); congruence].
  - destruct W as (g & W). rewrite W. split; [discriminate|intros (s' & E); congruence].
Qed.
Print Assumptions C75_refines.

(** the simulation ends: beyond some fuel the model has one result *)
Theorem C75_terminates : forall pick ts boot cb ab hosts faults stop,
  (forall t, In t ts -> 0 < m_cost t /\ 0 < m_period t) -> StronglySorted Z.le faults ->
  (forall l x, incl (cb l x) x) ->
  exists fuel st, forall fuel', (fuel <= fuel')%nat ->
    can_simulation fuel' pick ts boot cb ab hosts faults stop = Some st.
Proof.
  intros pick ts boot cb ab hf fs stop Hpos Hso Hcb.
  exact (simulation_ok pick ts (run_env cb boot hf fs) cb ab stop Hpos (conj Hcb (fun E => proj1 E)) Hso (fun E => proj2 E)).
Qed.
Print Assumptions C75_terminates.

(** ** What this means for the observations *)

Lemma run_frames : forall ts fs l b, (forall t, In t ts -> 0 < m_cost t /\ 0 < m_period t) ->
  bus_run ts fs bus_init l b ->
  (forall t i q r, In (Scheduled t i q r) l ->
     match wire b with
     | FreeFrom g => t + m_cost (msg_task ts i) + 3 <= g
     | Busy j s => (j = i /\ s = t) \/ t + m_cost (msg_task ts i) + 3 <= s
     end) /\
  (forall t i q r, In (Retransmitted t i q r) l -> t + 29 <= floor_of (wire b)) /\
  (forall i s, wire b = Busy i s -> In (Scheduled s i (inst b i) (release_of ts i (inst b i))) l /\ at_ b i = Sending).
Proof.
  intros ts fs l b Hpos H. remember bus_init as b0. induction H as [b0|b0 l b' o b'' H IH Hs].
  - subst. split; [|split]; [intros ? ? ? ? []|intros ? ? ? ? []|discriminate].
  - destruct (IH Heqb0) as (I1 & I2 & I3). clear IH.
    destruct Hs; cbn [clock wire inst at_ floor_of app] in *.
    + auto.
    + split; [|split]; auto.
    + split; [|split]; auto.
    + split; [|split].
      * intros t i' q r [E|Hin]; [discriminate|]. apply (I1 _ _ _ _ Hin).
      * intros t i' q r [E|Hin]; [discriminate|]. apply (I2 _ _ _ _ Hin).
      * intros i' s Hw. destruct (I3 i' s Hw) as (A & B). split; [right; exact A|].
        rewrite upd_other; congruence.
    + split; [|split].
      * intros t i' q r [E|Hin]; [discriminate|]. apply (I1 _ _ _ _ Hin).
      * intros t i' q r [E|Hin]; [discriminate|]. apply (I2 _ _ _ _ Hin).
      * intros i' s Hw. destruct (I3 i' s Hw) as (A & B). assert (i' <> i) by congruence.
        rewrite upd_other by assumption. split; [right; exact A|exact B].
    + split; [|split].
      * intros t i' q' r [E|Hin]; [discriminate|]. apply (I1 _ _ _ _ Hin).
      * intros t i' q' r [E|Hin]; [discriminate|]. apply (I2 _ _ _ _ Hin).
      * intros i' s Hw. destruct (I3 i' s Hw) as (A & B). split; [right; exact A|exact B].
    + split; [|split].
      * intros t i' q' r [E|Hin]; [injection E as -> -> _ _; left; auto|]. right. specialize (I1 _ _ _ _ Hin). lia.
      * intros t i' q' r [E|Hin]; [discriminate|]. specialize (I2 _ _ _ _ Hin). lia.
      * intros i' s Hw. injection Hw as <- <-. rewrite !upd_same. split; [left; reflexivity|reflexivity].
    + pose proof (positive_task ts i Hpos) as Pc. split; [|split].
      * intros t i' q r [E|Hin]; [discriminate|]. destruct (I1 _ _ _ _ Hin) as [(-> & ->)|A]; lia.
      * intros t i' q r [E|Hin]; [discriminate|]. specialize (I2 _ _ _ _ Hin). lia.
      * discriminate.
    + pose proof (positive_task ts i Hpos) as Pc. split; [|split].
      * intros t i' q r [E|[E|Hin]]; [discriminate|discriminate|]. destruct (I1 _ _ _ _ Hin) as [(-> & ->)|A]; lia.
      * intros t i' q r [E|[E|Hin]]; [discriminate|injection E as <- _ _ _; lia|]. specialize (I2 _ _ _ _ Hin). lia.
      * discriminate.
Qed.

(** an observation was made in some step, after those that precede it *)
Lemma run_split : forall ts fs b0 l b, bus_run ts fs b0 l b ->
  forall l1 x l2, l = l1 ++ x :: l2 ->
  exists b1 o b2 m1 m2, bus_run ts fs b0 m2 b1 /\ bus_step ts fs b1 (m1 ++ x :: o) b2 /\ l2 = o ++ m2.
Proof.
  intros ts fs b0 l b H. induction H as [b0|b0 l b' o b'' H IH Hs]; intros l1 x l2 E.
  - destruct l1; discriminate.
  - revert l1 E. destruct (le_lt_dec (length o) 0) as [L|L].
    + destruct o; [|cbn in L; lia]. intros l1 E. eapply IH. exact E.
    + intros l1 E.
      destruct (le_lt_dec (length o) (length l1)) as [L1|L1].
      * assert (E2 : exists l1', l1 = o ++ l1' /\ l = l1' ++ x :: l2).
        { clear - E L1. revert l1 E L1. induction o as [|a o IHo]; intros l1 E L1; [exists l1; auto|].
          destruct l1 as [|a' l1]; [cbn in L1; lia|]. cbn in E. injection E as <- E. cbn in L1.
          destruct (IHo l1 E ltac:(lia)) as (l1' & -> & ->). exists l1'. auto. }
        destruct E2 as (l1' & -> & E2). eapply IH. exact E2.
      * assert (E2 : exists o2, o = l1 ++ x :: o2 /\ l2 = o2 ++ l).
        { clear - E L1. revert o E L1. induction l1 as [|a l1 IHl]; intros o E L1.
          - destruct o as [|a o]; [cbn in L1; lia|]. cbn in E. injection E as <- <-. exists o. auto.
          - destruct o as [|a' o]; [cbn in L1; lia|]. cbn in E. injection E as <- E. cbn in L1.
            destruct (IHl o E ltac:(lia)) as (o2 & -> & ->). exists o2. auto. }
        destruct E2 as (o2 & -> & ->). exists b', o2, b'', l1, l. auto.
Qed.

Ltac label S1 m1 :=
  match type of S1 with
  | bus_step _ _ _ (m1 ++ ?x :: ?o) _ =>
      let lab := fresh "lab" in
      remember (m1 ++ x :: o) as lab eqn:Eo; destruct S1; destruct m1 as [|? [|? [|? ?]]]; try discriminate; cbn [app] in Eo
  end.

Ltac run_of H Hpos Hso Hcb :=
  let R := fresh "R" in
  destruct (C75_refines _ _ _ _ _ _ _ _ _ _ Hpos Hso Hcb H) as (? & R & _).

(** no two transmissions overlap: a later one starts at least an interframe space
    after the end of an earlier one, and an error frame after a disturbed one *)
Theorem C75_exclusive : forall fuel pick ts boot cb ab hosts faults stop st l1 l2 t' j q' r',
  (forall t, In t ts -> 0 < m_cost t /\ 0 < m_period t) -> StronglySorted Z.le faults ->
  (forall l x, incl (cb l x) x) ->
  can_simulation fuel pick ts boot cb ab hosts faults stop = Some st ->
  clog st = l1 ++ Scheduled t' j q' r' :: l2 ->
  (forall t i q r, In (Scheduled t i q r) l2 -> t + m_cost (msg_task ts i) + 3 <= t') /\
  (forall t i q r, In (Retransmitted t i q r) l2 -> t + 29 <= t').
Proof.
  intros fuel pick ts boot cb ab hf fs stop st l1 l2 t' j q' r' Hpos Hso Hcb H E.
  run_of H Hpos Hso Hcb. destruct (run_split _ _ _ _ _ R _ _ _ E) as (b1 & o & b2 & m1 & m2 & R1 & S1 & ->).
  destruct (run_frames _ _ _ _ Hpos R1) as (I1 & I2 & _).
  label S1 m1.
  injection Eo; intros; subst.
  cbn [wire floor_of app] in *. split.
  - intros t i' q0 r Hin. specialize (I1 _ _ _ _ Hin). lia.
  - intros t i' q0 r Hin. specialize (I2 _ _ _ _ Hin). lia.
Qed.
Print Assumptions C75_exclusive.

(** every reported success is the end of an undisturbed transmission of that
    instance that took exactly the cost; every reported retransmission the end of
    a disturbed one *)
Theorem C75_frames : forall fuel pick ts boot cb ab hosts faults stop st l1 l2 t i q r,
  (forall t, In t ts -> 0 < m_cost t /\ 0 < m_period t) -> StronglySorted Z.le faults ->
  (forall l x, incl (cb l x) x) ->
  can_simulation fuel pick ts boot cb ab hosts faults stop = Some st ->
  (clog st = l1 ++ Completed t i q r :: l2 ->
     In (Scheduled (t - m_cost (msg_task ts i)) i q r) l2 /\
     forall f, In f faults -> ~ (t - m_cost (msg_task ts i) <= f <= t)) /\
  (clog st = l1 ++ Retransmitted t i q r :: l2 ->
     In (Scheduled (t - m_cost (msg_task ts i)) i q r) l2 /\
     exists f, In f faults /\ t - m_cost (msg_task ts i) <= f <= t).
Proof.
  intros fuel pick ts boot cb ab hf fs stop st l1 l2 t i q r Hpos Hso Hcb H.
  run_of H Hpos Hso Hcb.
  split; intros E; destruct (run_split _ _ _ _ _ R _ _ _ E) as (b1 & o & b2 & m1 & m2 & R1 & S1 & ->);
    destruct (run_frames _ _ _ _ Hpos R1) as (_ & _ & I3).
  - label S1 m1.
    injection Eo; intros; subst.
    cbn [wire inst at_ app] in *. replace (s + m_cost (msg_task ts i) - m_cost (msg_task ts i)) with s by lia.
    split; [apply I3; reflexivity|assumption].
  - label S1 m1.
    injection Eo; intros; subst.
    cbn [wire inst at_ app] in *. replace (s + m_cost (msg_task ts i) - m_cost (msg_task ts i)) with s by lia.
    split; [apply I3; reflexivity|assumption].
Qed.
Print Assumptions C75_frames.

(** ** C76: instances *)

(** what is transmitted is the newest instance of the message at time t + 1 *)
Theorem C76_newest : forall fuel pick ts boot cb ab hosts faults stop st t i q r,
  (forall t, In t ts -> 0 < m_cost t /\ 0 < m_period t) -> StronglySorted Z.le faults ->
  (forall l x, incl (cb l x) x) ->
  can_simulation fuel pick ts boot cb ab hosts faults stop = Some st ->
  In (Scheduled t i q r) (clog st) ->
  r = (q - 1) * m_period (msg_task ts i) /\ r <= t + 1 < r + m_period (msg_task ts i).
Proof.
  intros fuel pick ts boot cb ab hf fs stop st t i q r Hpos Hso Hcb H Hin.
  run_of H Hpos Hso Hcb. apply in_split in Hin. destruct Hin as (l1 & l2 & E).
  destruct (run_split _ _ _ _ _ R _ _ _ E) as (b1 & o & b2 & m1 & m2 & R1 & S1 & ->).
  label S1 m1.
  injection Eo; intros; subst.
  unfold release_of in *. split; [reflexivity|]. nia.
Qed.
Print Assumptions C76_newest.

Lemma run_numbers : forall ts fs l b, bus_run ts fs bus_init l b ->
  (forall t i q r, In (Completed t i q r) l -> q < inst b i) /\
  (forall t i q r, In (Omitted t i q r) l -> q < inst b i).
Proof.
  intros ts fs l b H. remember bus_init as b0. induction H as [b0|b0 l b' o b'' H IH Hs].
  - split; intros ? ? ? ? [].
  - destruct (IH Heqb0) as (I1 & I2). clear IH.
    assert (Hstep : (forall j, inst b' j <= inst b'' j) /\
      (forall t i q r, In (Completed t i q r) o \/ In (Omitted t i q r) o -> q < inst b'' i)).
    { destruct Hs; cbn [inst]; (split; [intros j; unfold upd; destruct (Nat.eqb_spec j i); subst; lia || lia|]) || (split; [intros; lia|]);
        intros t0 i0 q0 r0 [Hin|Hin]; cbn in Hin; repeat (destruct Hin as [Hin|Hin]); try discriminate; try contradiction;
        injection Hin as <- <- <- <-; rewrite upd_same; lia. }
    destruct Hstep as (M & N).
    split; intros t i q r Hin; apply in_app_or in Hin; destruct Hin as [Hin|Hin]; try (eapply N; eauto; fail).
    + specialize (I1 _ _ _ _ Hin). specialize (M i). lia.
    + specialize (I2 _ _ _ _ Hin). specialize (M i). lia.
Qed.

(** the instances of a message succeed in increasing order, each at most once, and
    none that was omitted *)
Theorem C76_once : forall fuel pick ts boot cb ab hosts faults stop st l1 l2 t' i q' r',
  (forall t, In t ts -> 0 < m_cost t /\ 0 < m_period t) -> StronglySorted Z.le faults ->
  (forall l x, incl (cb l x) x) ->
  can_simulation fuel pick ts boot cb ab hosts faults stop = Some st ->
  clog st = l1 ++ Completed t' i q' r' :: l2 ->
  forall t q r, In (Completed t i q r) l2 \/ In (Omitted t i q r) l2 -> q < q'.
Proof.
  intros fuel pick ts boot cb ab hf fs stop st l1 l2 t' i q' r' Hpos Hso Hcb H E t q r Hin.
  run_of H Hpos Hso Hcb. destruct (run_split _ _ _ _ _ R _ _ _ E) as (b1 & o & b2 & m1 & m2 & R1 & S1 & ->).
  destruct (run_numbers _ _ _ _ R1) as (I1 & I2).
  label S1 m1.
  injection Eo; intros; subst.
  cbn [inst app] in *. destruct Hin as [Hin|Hin]; eauto.
Qed.
Print Assumptions C76_once.

(** a deadline is reported only after it has passed *)
Theorem C76_expired : forall fuel pick ts boot cb ab hosts faults stop st t i q r,
  (forall t, In t ts -> 0 < m_cost t /\ 0 < m_period t) -> StronglySorted Z.le faults ->
  (forall l x, incl (cb l x) x) ->
  can_simulation fuel pick ts boot cb ab hosts faults stop = Some st ->
  In (Expired t i q r) (clog st) ->
  r = (q - 1) * m_period (msg_task ts i) /\ r + m_deadline (msg_task ts i) <= t.
Proof.
  intros fuel pick ts boot cb ab hf fs stop st t i q r Hpos Hso Hcb H Hin.
  run_of H Hpos Hso Hcb. apply in_split in Hin. destruct Hin as (l1 & l2 & E).
  destruct (run_split _ _ _ _ _ R _ _ _ E) as (b1 & o & b2 & m1 & m2 & R1 & S1 & ->).
  label S1 m1.
  injection Eo; intros; subst.
  unfold release_of in *. auto.
Qed.
Print Assumptions C76_expired.

(** only critical messages are omitted, and only if their host failed within the
    boot time before their release *)
Theorem C76_omitted : forall fuel pick ts boot cb ab hosts faults stop st t i q r,
  (forall t, In t ts -> 0 < m_cost t /\ 0 < m_period t) -> StronglySorted Z.le faults ->
  (forall l x, incl (cb l x) x) ->
  can_simulation fuel pick ts boot cb ab hosts faults stop = Some st ->
  In (Omitted t i q r) (clog st) ->
  m_critical (msg_task ts i) = true /\ r = (q - 1) * m_period (msg_task ts i) /\
  exists f, In f (hosts i) /\ r - boot <= f <= r.
Proof.
  intros fuel pick ts boot cb ab hf fs stop st t i q r Hpos Hso Hcb H Hin.
  run_of H Hpos Hso Hcb. apply in_split in Hin. destruct Hin as (l1 & l2 & E).
  destruct (run_split _ _ _ _ _ R _ _ _ E) as (b1 & o & b2 & m1 & m2 & R1 & S1 & ->).
  label S1 m1. injection Eo; intros; subst. unfold release_of in *. auto.
Qed.
Print Assumptions C76_omitted.

(** and all of those are, if the callbacks leave the failures alone: such an
    instance is queued only when it is repeated *)
Theorem C76_down_is_omitted : forall fuel pick ts boot cb ab hosts faults stop st l1 l2 t i q r f,
  (forall t, In t ts -> 0 < m_cost t /\ 0 < m_period t) -> StronglySorted Z.le faults ->
  (forall l x, cb l x = x) -> (forall j, StronglySorted Z.le (hosts j)) ->
  can_simulation fuel pick ts boot cb ab hosts faults stop = Some st ->
  clog st = l1 ++ Released t i q r :: l2 ->
  m_critical (msg_task ts i) = true -> In f (hosts i) -> r - boot <= f <= r ->
  exists l3, l2 = Retransmitted t i q r :: l3.
Proof.
  intros fuel pick ts boot cb ab hf fs stop st l1 l2 t i q r f Hpos Hso Hid Hho H E Hc Hf Hr.
  assert (Hcb : forall l x, incl (cb l x) x) by (intros l x; rewrite Hid; apply incl_refl).
  run_of H Hpos Hso Hcb.
  destruct (run_split _ _ _ _ _ R _ _ _ E) as (b1 & o & b2 & m1 & m2 & R1 & S1 & ->).
  label S1 m1; injection Eo; intros; subst.
  - exfalso. match goal with A : same _ -> _ |- _ => apply (A (conj Hid Hho) Hc) end. exists f. auto.
  - cbn. eauto.
Qed.
Print Assumptions C76_down_is_omitted.

(** the simulator transmits an instance before it is released: message 1 waits
    since 0 and gets the bus at 9, one time unit before its second instance is
    released at 10; the first one is dropped although its deadline is 10 *)
Definition early_set : list cantask := [CANTask 6 100 100 0 false; CANTask 4 10 10 1 false].

Theorem C76_early_refuted : exists fuel pick ts boot cb ab hosts faults stop st t i q r,
  (forall t, In t ts -> 0 < m_cost t /\ 0 < m_period t) /\ StronglySorted Z.le faults /\ (forall l x, cb l x = x) /\
  can_simulation fuel pick ts boot cb ab hosts faults stop = Some st /\
  In (Scheduled t i q r) (clog st) /\ t < r /\
  (forall t', ~ In (Completed t' i (q - 1) (r - m_period (msg_task ts i))) (clog st)).
Proof.
  exists 100%nat, (fun _ => 0%nat), early_set, 0, (fun _ l => l), (fun _ => false), (fun _ => []), [], 30.
  eexists. exists 9, 1%nat, 2, 10.
  split; [intros t [<-|[<-|[]]]; cbn; lia|]. split; [constructor|]. split; [reflexivity|].
  split; [vm_compute; reflexivity|]. cbn [clog].
  split; [cbn; tauto|]. split; [lia|]. intros t'. cbn. intuition discriminate.
Qed.
Print Assumptions C76_early_refuted.

(** an instance that replaces an older one in the controller has no deadline event:
    the second instance of message 1, released at 10, is completed at 23, after its
    deadline 20, and job_deadline_expired is never called for it *)
Definition late_set : list cantask := [CANTask 15 100 100 0 false; CANTask 5 10 10 1 false].

Theorem C76_deadline_refuted : exists fuel pick ts boot cb ab hosts faults stop st t i q r,
  (forall t, In t ts -> 0 < m_cost t /\ 0 < m_period t) /\ StronglySorted Z.le faults /\ (forall l x, cb l x = x) /\
  can_simulation fuel pick ts boot cb ab hosts faults stop = Some st /\
  In (Completed t i q r) (clog st) /\ r + m_deadline (msg_task ts i) < t /\
  (forall t', ~ In (Expired t' i q r) (clog st)).
Proof.
  exists 100%nat, (fun _ => 0%nat), late_set, 0, (fun _ l => l), (fun _ => false), (fun _ => []), [], 60.
  eexists. exists 23, 1%nat, 2, 10.
  split; [intros t [<-|[<-|[]]]; cbn; lia|]. split; [constructor|]. split; [reflexivity|].
  split; [vm_compute; reflexivity|]. cbn [clog].
  split; [cbn; tauto|]. split; [cbn; lia|]. intros t'. cbn. intuition discriminate.
Qed.
Print Assumptions C76_deadline_refuted.

(** a run with a disturbed transmission and an omitted instance *)
Definition run_set : list cantask := [CANTask 5 50 50 0 false; CANTask 4 50 50 1 true].

Example C75_run :
  (forall t, In t run_set -> 0 < m_cost t /\ 0 < m_period t) /\
  option_map (fun st => rev (clog st))
    (can_simulation 100 (fun _ => 0%nat) run_set 5 (fun _ l => l)
       (fun _ => false) (fun i => if Nat.eqb i 1 then [48] else []) [2; 3] 60)
  = Some [Released 0 0 1 0; Released 0 1 1 0; Scheduled 0 0 1 0; Retransmitted 5 0 1 0; Released 5 0 1 0;
          Scheduled 34 0 1 0; Completed 39 0 1 0; Scheduled 42 1 1 0; Completed 46 1 1 0;
          Expired 50 0 1 0; Expired 50 1 1 0; Released 50 0 2 50; Omitted 50 1 2 50; Scheduled 50 0 2 50;
          Completed 55 0 2 50; Expired 100 0 2 50; Expired 100 1 2 50; Released 100 1 3 100;
          Released 100 0 3 100; Scheduled 100 0 3 100].
Proof. split; [intros t [<-|[<-|[]]]; cbn; lia|vm_compute; reflexivity]. Qed.
