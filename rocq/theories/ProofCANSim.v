(** Lemmas for C75 and C76: the simulator refines the bus. *)
From Coq Require Import ZArith List Bool Lia Sorted.
From Verif Require Import Base ModelCANSim SpecCANSim.
Import ListNotations.
Open Scope Z_scope.

(** * Queues *)

Lemma extract_some : forall A (best : A -> bool) l k x r,
  extract best k l = Some (x, r) -> best x = true /\ exists l1 l2, l = l1 ++ x :: l2 /\ r = l1 ++ l2.
Proof.
  induction l as [|a l IH]; intros k x r H; cbn in H; [discriminate|].
  destruct (best a) eqn:E.
  - destruct k as [|k].
    + injection H as <- <-. split; [exact E|]. exists [], l. auto.
    + destruct (extract best k l) as [[y r']|] eqn:E2; [|discriminate]. injection H as <- <-.
      destruct (IH _ _ _ E2) as (B & l1 & l2 & -> & ->). split; [exact B|]. exists (a :: l1), l2. auto.
  - destruct (extract best k l) as [[y r']|] eqn:E2; [|discriminate]. injection H as <- <-.
    destruct (IH _ _ _ E2) as (B & l1 & l2 & -> & ->). split; [exact B|]. exists (a :: l1), l2. auto.
Qed.

Lemma extract_ok : forall A (best : A -> bool) l k,
  (k < length (filter best l))%nat -> extract best k l <> None.
Proof.
  induction l as [|a l IH]; intros k H; cbn in *; [lia|].
  destruct (best a) eqn:E.
  - destruct k as [|k]; [discriminate|]. cbn in H.
    specialize (IH k ltac:(lia)). destruct (extract best k l) as [[y r']|]; congruence.
  - specialize (IH k H). destruct (extract best k l) as [[y r']|]; congruence.
Qed.

Lemma has_min : forall A (key : A -> Z) l, l <> [] -> exists x, In x l /\ forall y, In y l -> key x <= key y.
Proof.
  induction l as [|a l IH]; intros H; [congruence|].
  destruct l as [|b l].
  - exists a. split; [left; reflexivity|]. intros y [<-|[]]. lia.
  - destruct (IH ltac:(discriminate)) as (x & Hx & Hm).
    destruct (Z.le_ge_cases (key a) (key x)).
    + exists a. split; [left; reflexivity|]. intros y [<-|Hy]; [lia|]. specialize (Hm y Hy). lia.
    + exists x. split; [right; exact Hx|]. intros y [<-|Hy]; [lia|]. apply Hm, Hy.
Qed.

Lemma pop_min_some : forall A pick n (key : A -> Z) l x r,
  pop_min pick n key l = Some (x, r) ->
  (forall y, In y l -> key x <= key y) /\ exists l1 l2, l = l1 ++ x :: l2 /\ r = l1 ++ l2.
Proof.
  intros A pick n key l x r H. unfold pop_min in H. apply extract_some in H. destruct H as (B & H).
  split; [|exact H]. rewrite forallb_forall in B. intros y Hy. apply Z.leb_le, B, Hy.
Qed.

Lemma pop_min_none : forall A pick n (key : A -> Z) l, pop_min pick n key l = None -> l = [].
Proof.
  intros A pick n key l H. destruct l as [|a l]; [reflexivity|]. exfalso.
  destruct (has_min A key (a :: l) ltac:(discriminate)) as (x & Hx & Hm).
  unfold pop_min in H. revert H. apply extract_ok.
  apply PeanoNat.Nat.mod_upper_bound.
  assert (Hin : In x (filter (fun x => forallb (fun y => key x <=? key y) (a :: l)) (a :: l))).
  { apply filter_In. split; [exact Hx|]. apply forallb_forall. intros y Hy. apply Z.leb_le, Hm, Hy. }
  destruct (filter (fun x => forallb (fun y => key x <=? key y) (a :: l)) (a :: l)); [destruct Hin|]. cbn. lia.
Qed.

(** * Faults *)

Lemma is_retransmission_spec : forall s e l b l',
  StronglySorted Z.le l -> is_retransmission s e l = (b, l') ->
  StronglySorted Z.le l' /\ incl l' l /\ (forall f, In f l -> In f l' \/ f <= e) /\
  (b = true <-> exists f, In f l /\ s <= f <= e).
Proof.
  induction l as [|f l IH]; intros b l' Hs H; cbn in H.
  - injection H as <- <-. repeat split; auto using incl_refl; [discriminate|]. intros (f & [] & _).
  - apply StronglySorted_inv in Hs. destruct Hs as (Hs & Hf). rewrite Forall_forall in Hf.
    destruct (e <? f) eqn:E1.
    + injection H as <- <-. apply Z.ltb_lt in E1. split; [constructor; [exact Hs|now apply Forall_forall]|].
      split; [apply incl_refl|]. split; [auto|]. split; [discriminate|].
      intros (g & [<-|Hg] & Hr); [lia|]. specialize (Hf _ Hg). lia.
    + apply Z.ltb_ge in E1. destruct ((s <=? f) && (f <=? e)) eqn:E2.
      * injection H as <- <-. apply andb_true_iff in E2. destruct E2 as (E2 & E3).
        apply Z.leb_le in E2, E3. split; [exact Hs|]. split; [intros g Hg; right; exact Hg|].
        split; [intros g [<-|Hg]; [right; lia|left; exact Hg]|].
        split; [|reflexivity]. intros _. exists f. split; [left; reflexivity|lia].
      * destruct (IH _ _ Hs H) as (I1 & I2 & I3 & I4).
        split; [exact I1|]. split; [intros g Hg; right; apply I2, Hg|].
        split; [intros g [<-|Hg]; [right; lia|apply I3, Hg]|].
        rewrite I4. split; intros (g & Hg & Hr).
        -- exists g. split; [right; exact Hg|exact Hr].
        -- destruct Hg as [<-|Hg]; [|exists g; auto]. exfalso.
           apply andb_false_iff in E2. destruct E2 as [E2|E2]; apply Z.leb_gt in E2; lia.
Qed.

(** * The simulation relation *)

Definition positive (ts : list cantask) : Prop := forall t, In t ts -> 0 < m_cost t /\ 0 < m_period t.

Lemma positive_task : forall ts i, positive ts -> 0 < m_cost (msg_task ts i) /\ 0 < m_period (msg_task ts i).
Proof.
  intros ts i H. unfold msg_task. destruct (nth_in_or_default i ts (CANTask 1 1 1 0 false)) as [Hin| ->]; [auto|].
  cbn. lia.
Qed.

Definition rel_ids (ev : list (Z * canevent)) : list nat :=
  flat_map (fun e => match snd e with EvRelease i => [i] | _ => [] end) ev.

Lemma in_rel_ids : forall j ev, In j (rel_ids ev) <-> exists t, In (t, EvRelease j) ev.
Proof.
  intros j ev. unfold rel_ids. rewrite in_flat_map. split.
  - intros ((t & e) & He & H). destruct e; cbn in H; try contradiction. destruct H as [<-|[]]. exists t. exact He.
  - intros (t & H). exists (t, EvRelease j). split; [exact H|left; reflexivity].
Qed.

Lemma rel_ids_app : forall a b, rel_ids (a ++ b) = rel_ids a ++ rel_ids b.
Proof. intros. apply flat_map_app. Qed.

Definition floor_of (w : medium) : Z := match w with FreeFrom g => g | Busy _ s => s end.

(** what is left of the faults of a host suffices from release r on *)
Definition host_ok (e : env) (j : nat) (r : Z) (l : list Z) : Prop :=
  incl l (host_faults e j) /\
  (same e -> StronglySorted Z.le l /\ forall f, In f (host_faults e j) -> In f l \/ f < r - boot e).

Lemma host_ok_later : forall e j r r' l, host_ok e j r l -> r <= r' -> host_ok e j r' l.
Proof.
  intros e j r r' l (A & B) Hr. split; [exact A|]. intros Hs. destruct (B Hs) as (C & D). split; [exact C|].
  intros f Hf. destruct (D f Hf) as [H|H]; [left; exact H|right; lia].
Qed.

Lemma omission_scan_incl : forall s e l b l', omission_scan s e l = (b, l') ->
  incl l' l /\ (b = true -> exists f, In f l /\ s <= f <= e).
Proof.
  induction l as [|f l IH]; intros b l' H; cbn in H.
  - injection H as <- <-. split; [apply incl_refl|discriminate].
  - destruct (e <? f) eqn:E1; [injection H as <- <-; split; [apply incl_refl|discriminate]|].
    destruct ((s <=? f) && (f <=? e)) eqn:E2.
    + injection H as <- <-. apply andb_true_iff in E2. destruct E2 as (E2 & E3). apply Z.leb_le in E2, E3.
      split; [apply incl_refl|]. intros _. exists f. split; [left; reflexivity|lia].
    + destruct (IH _ _ H) as (A & B). split; [intros g Hg; right; apply A, Hg|].
      intros Hb. destruct (B Hb) as (g & Hg & Hr). exists g. split; [right; exact Hg|exact Hr].
Qed.

Lemma omission_scan_sorted : forall s e l b l', StronglySorted Z.le l -> omission_scan s e l = (b, l') ->
  StronglySorted Z.le l' /\ (forall f, In f l -> In f l' \/ f < s) /\
  (b = false -> forall f, In f l -> ~ (s <= f <= e)).
Proof.
  induction l as [|f l IH]; intros b l' Hs H; cbn in H.
  - injection H as <- <-. repeat split; auto.
  - pose proof Hs as Hs0. apply StronglySorted_inv in Hs. destruct Hs as (Hs & Hf). rewrite Forall_forall in Hf.
    destruct (e <? f) eqn:E1.
    + injection H as <- <-. apply Z.ltb_lt in E1. repeat split; auto.
      intros _ g [<-|Hg] Hr; [lia|]. specialize (Hf _ Hg). lia.
    + apply Z.ltb_ge in E1. destruct ((s <=? f) && (f <=? e)) eqn:E2.
      * injection H as <- <-. repeat split; auto. discriminate.
      * assert (f < s) by (apply andb_false_iff in E2; destruct E2 as [E2|E2]; apply Z.leb_gt in E2; lia).
        destruct (IH _ _ Hs H) as (A & B & C). split; [exact A|]. split.
        -- intros g [<-|Hg]; [right; assumption|apply B, Hg].
        -- intros Hb g [<-|Hg] Hr; [lia|]. exact (C Hb g Hg Hr).
Qed.

(** is_omission decides whether the host is down *)
Lemma host_ok_scan : forall e j r l b l',
  host_ok e j r l -> omission_scan (r - boot e) r l = (b, l') ->
  host_ok e j r l' /\ (b = true -> down e j r) /\ (b = false -> same e -> ~ down e j r).
Proof.
  intros e j r l b l' (A & B) H. destruct (omission_scan_incl _ _ _ _ _ H) as (I1 & I2).
  split; [split; [intros f Hf; apply A, I1, Hf|]|split].
  - intros Hs. destruct (B Hs) as (B1 & B2). destruct (omission_scan_sorted _ _ _ _ _ B1 H) as (C1 & C2 & _).
    split; [exact C1|]. intros f Hf. destruct (B2 f Hf) as [D|D]; [apply C2, D|right; exact D].
  - intros Hb. destruct (I2 Hb) as (f & Hf & Hr). exists f. split; [apply A, Hf|exact Hr].
  - intros Hb Hs (f & Hf & Hr). destruct (B Hs) as (B1 & B2).
    destruct (omission_scan_sorted _ _ _ _ _ B1 H) as (_ & _ & C3).
    destruct (B2 f Hf) as [D|D]; [exact (C3 Hb f D Hr)|lia].
Qed.

(** [h] is the message whose release is being processed, if any *)
Record Rel (ts : list cantask) (faults : env) (h : option nat) (st : canstate) (b : busstate) : Prop := {
  r_run : bus_run ts faults bus_init (clog st) b;
  r_clock : clock b = cnow st;
  r_wire : match cbus st with
           | None => exists g, wire b = FreeFrom g
           | Some i => exists s, wire b = Busy i s /\ cj_alloc (cjobs st i) = cnow st - s
                        /\ cnow st < s + m_cost (msg_task ts i) /\ In (s + m_cost (msg_task ts i), EvDummy) (cevents st)
                        /\ (i < length ts)%nat /\ at_ b i = Sending
           end;
  r_nodup : NoDup (cpending st);
  r_pend : forall j, In j (cpending st) <-> (j < length ts)%nat /\ at_ b j = Waiting;
  r_evdup : NoDup (rel_ids (cevents st));
  r_ev : forall j t, In (t, EvRelease j) (cevents st) ->
           (j < length ts)%nat /\ at_ b j = Future /\ t = cj_release (cjobs st j);
  r_fut : forall j, (j < length ts)%nat -> at_ b j = Future -> h <> Some j ->
            In (cj_release (cjobs st j), EvRelease j) (cevents st);
  r_hand : forall j, h = Some j -> (j < length ts)%nat /\ at_ b j = Future /\ ~ In j (rel_ids (cevents st));
  r_job : forall j, (j < length ts)%nat ->
            cj_seqno (cjobs st j) = inst b j /\ cj_release (cjobs st j) = release_of ts j (inst b j)
            /\ (at_ b j <> Sending -> cj_alloc (cjobs st j) = 0);
  r_send : forall j, (j < length ts)%nat -> at_ b j = Sending -> cbus st = Some j;
  r_dl : forall t j k r, In (t, EvDeadline j k r) (cevents st) ->
           (j < length ts)%nat /\ r = release_of ts j k /\ t = r + m_deadline (msg_task ts j);
  r_sorted : StronglySorted Z.le (cretr st);
  r_incl : incl (cretr st) (wire_faults faults);
  r_used : forall f, In f (wire_faults faults) -> In f (cretr st) \/ f < floor_of (wire b);
  r_host : forall j, (j < length ts)%nat -> host_ok faults j (cj_release (cjobs st j)) (cj_faults (cjobs st j)) }.

Lemma upd_same : forall A (f : nat -> A) i x, upd f i x i = x.
Proof. intros. unfold upd. now rewrite PeanoNat.Nat.eqb_refl. Qed.

Lemma upd_other : forall A (f : nat -> A) i j x, j <> i -> upd f i x j = f j.
Proof. intros. unfold upd. apply PeanoNat.Nat.eqb_neq in H. now rewrite H. Qed.

(** the event queue takes the deadline of the message in hand *)
Lemma rel_push_deadline : forall ts fs h st b i,
  Rel ts fs h st b -> (i < length ts)%nat ->
  Rel ts fs h (push_event st (cj_release (cjobs st i) + m_deadline (msg_task ts i),
                              EvDeadline i (cj_seqno (cjobs st i)) (cj_release (cjobs st i)))) b.
Proof.
  intros ts fs h st b i R Hi. destruct (r_job _ _ _ _ _ R i Hi) as (J1 & J2 & _).
  destruct R. constructor; cbn [push_event cnow cbus cpending cevents cjobs cretr cpops clog]; auto.
  - destruct (cbus st); [|assumption]. destruct r_wire0 as (s & W1 & W2 & W3 & W4 & W5 & W6).
    exists s. repeat split; auto. apply in_or_app. auto.
  - rewrite rel_ids_app. cbn. rewrite app_nil_r. assumption.
  - intros j t H. apply in_app_or in H. destruct H as [H|[H|[]]]; [eauto|discriminate].
  - intros j H1 H2 H3. apply in_or_app. left. auto.
  - intros j H. rewrite rel_ids_app. cbn. rewrite app_nil_r. auto.
  - intros t j k r H. apply in_app_or in H. destruct H as [H|[H|[]]]; [eauto|].
    injection H as <- <- <- <-. rewrite J1, J2. auto.
Qed.

(** the faults left of a message do not matter *)
Lemma rel_put_faults : forall ts fs h st b i hf,
  Rel ts fs h st b -> host_ok fs i (cj_release (cjobs st i)) hf ->
  Rel ts fs h (put_job st i (CANJob (cj_release (cjobs st i)) (cj_alloc (cjobs st i)) (cj_seqno (cjobs st i)) hf)) b.
Proof.
  intros ts fs h st b i hf R Hhf.
  assert (E : forall j, cj_release (cjobs (put_job st i (CANJob (cj_release (cjobs st i)) (cj_alloc (cjobs st i)) (cj_seqno (cjobs st i)) hf)) j) = cj_release (cjobs st j)
           /\ cj_alloc (cjobs (put_job st i (CANJob (cj_release (cjobs st i)) (cj_alloc (cjobs st i)) (cj_seqno (cjobs st i)) hf)) j) = cj_alloc (cjobs st j)
           /\ cj_seqno (cjobs (put_job st i (CANJob (cj_release (cjobs st i)) (cj_alloc (cjobs st i)) (cj_seqno (cjobs st i)) hf)) j) = cj_seqno (cjobs st j)).
  { intros j. cbn. destruct (Nat.eqb j i) eqn:E; [apply PeanoNat.Nat.eqb_eq in E; subst|]; cbn; auto. }
  destruct R. constructor; auto.
  - cbn [put_job cbus]. destruct (cbus st) as [i0|]; [|assumption]. destruct (E i0) as (_ & -> & _). assumption.
  - intros j t H. destruct (E j) as (-> & _). exact (r_ev0 j t H).
  - intros j. destruct (E j) as (-> & _). apply r_fut0.
  - intros j H. destruct (E j) as (-> & -> & ->). auto.
  - intros j H. destruct (E j) as (-> & _). cbn. destruct (Nat.eqb j i) eqn:E2; [|auto].
    apply PeanoNat.Nat.eqb_eq in E2. subst j. exact Hhf.
Qed.

(** the message in hand goes to the pending queue *)
Lemma rel_ready : forall ts fs st b i,
  Rel ts fs (Some i) st b -> cj_release (cjobs st i) <= cnow st ->
  (same fs -> m_critical (msg_task ts i) = true -> ~ down fs i (cj_release (cjobs st i))) ->
  exists b', Rel ts fs None (notify (push_pending st i) Released i) b' /\ wire b' = wire b.
Proof.
  intros ts fs st b i R Hr Hup. destruct (r_hand _ _ _ _ _ R i eq_refl) as (Hi & Hf & Hn).
  destruct (r_job _ _ _ _ _ R i Hi) as (J1 & J2 & J3).
  destruct b as [c w k p]. cbn [at_ inst] in *.
  exists (Bus c w k (upd p i Waiting)). split; [|reflexivity].
  destruct R. cbn [clock wire inst at_] in *. subst c.
  constructor; cbn [notify push_pending cnow cbus cpending cevents cjobs cretr cpops clog clock wire inst at_]; auto.
  - rewrite J1, J2. apply (br_step _ _ _ _ _ [Released (cnow st) i (k i) (release_of ts i (k i))] _ r_run0).
    apply bs_release; auto; [congruence|]. rewrite <- J2. exact Hup.
  - destruct (cbus st) as [i0|]; [|assumption]. destruct r_wire0 as (s & W1 & W2 & W3 & W4 & W5 & W6).
    exists s. repeat split; auto. rewrite upd_other; [assumption|congruence].
  - assert (Hni : ~ In i (cpending st)) by (intros H; apply r_pend0 in H; destruct H; congruence).
    clear - r_nodup0 Hni. induction (cpending st) as [|a l IH]; cbn; [constructor; [auto|constructor]|].
    inversion r_nodup0; subst. constructor.
    + intros H. apply in_app_or in H. destruct H as [H|[H|[]]]; [auto|]. subst. apply Hni. left. reflexivity.
    + apply IH; [assumption|]. intros H. apply Hni. right. exact H.
  - intros j. rewrite in_app_iff. cbn. destruct (PeanoNat.Nat.eq_dec j i) as [->|Hne].
    + rewrite upd_same. split; auto.
    + rewrite upd_other by assumption. rewrite r_pend0. split; [intros [H|[H|[]]]; [exact H|congruence]|auto].
  - intros j t H. destruct (PeanoNat.Nat.eq_dec j i) as [->|Hne].
    + exfalso. apply Hn. apply in_rel_ids. eauto.
    + rewrite upd_other by assumption. auto.
  - intros j H1 H2 _. destruct (PeanoNat.Nat.eq_dec j i) as [->|Hne]; [rewrite upd_same in H2; discriminate|].
    rewrite upd_other in H2 by assumption. apply r_fut0; auto. congruence.
  - intros j H. discriminate.
  - intros j H. destruct (r_job0 j H) as (A1 & A2 & A3). repeat split; auto. intros H2.
    destruct (PeanoNat.Nat.eq_dec j i) as [->|Hne]; [apply A3; congruence|].
    rewrite upd_other in H2 by assumption. auto.
  - intros j H1 H2. destruct (PeanoNat.Nat.eq_dec j i) as [->|Hne]; [rewrite upd_same in H2; discriminate|].
    rewrite upd_other in H2 by assumption. auto.
Qed.

(** the next instance of the message in hand is a future event *)
Lemma rel_future : forall ts fs st b i,
  Rel ts fs (Some i) st b ->
  Rel ts fs None (push_event st (cj_release (cjobs st i), EvRelease i)) b.
Proof.
  intros ts fs st b i R. destruct (r_hand _ _ _ _ _ R i eq_refl) as (Hi & Hf & Hn).
  destruct R. constructor; cbn [push_event cnow cbus cpending cevents cjobs cretr cpops clog]; auto.
  - destruct (cbus st) as [i0|]; [|assumption]. destruct r_wire0 as (s & W1 & W2 & W3 & W4 & W5 & W6).
    exists s. repeat split; auto. apply in_or_app. auto.
  - rewrite rel_ids_app. cbn. clear - r_evdup0 Hn.
    induction (rel_ids (cevents st)) as [|a l IH]; cbn; [constructor; [auto|constructor]|].
    inversion r_evdup0; subst. constructor.
    + intros H. apply in_app_or in H. destruct H as [H|[H|[]]]; [auto|]. subst. apply Hn. left. reflexivity.
    + apply IH; [assumption|]. intros H. apply Hn. right. exact H.
  - intros j t H. apply in_app_or in H. destruct H as [H|[H|[]]]; [auto|]. injection H as <- <-. auto.
  - intros j H1 H2 _. apply in_or_app. destruct (PeanoNat.Nat.eq_dec j i) as [->|Hne]; [right; left; reflexivity|].
    left. apply r_fut0; auto. congruence.
  - intros j H. discriminate.
  - intros t j k r H. apply in_app_or in H. destruct H as [H|[H|[]]]; [eauto|discriminate].
Qed.

Lemma release_next : forall ts i k, release_of ts i k + (m_period (msg_task ts i) + 0) = release_of ts i (k + 1).
Proof. intros. unfold release_of. ring. Qed.

(** the message in hand is omitted *)
Lemma rel_omit : forall ts fs st b i,
  positive ts -> Rel ts fs (Some i) st b -> cj_release (cjobs st i) <= cnow st -> m_critical (msg_task ts i) = true ->
  down fs i (cj_release (cjobs st i)) ->
  exists b', Rel ts fs (Some i)
    (put_job (notify st Omitted i) i (can_init_next (msg_task ts i) (cjobs (notify st Omitted i) i))) b' /\ wire b' = wire b.
Proof.
  intros ts fs st b i Hpos R Hr Hc Hdown. destruct (r_hand _ _ _ _ _ R i eq_refl) as (Hi & Hf & Hn).
  destruct (r_job _ _ _ _ _ R i Hi) as (J1 & J2 & J3).
  destruct b as [c w k p]. cbn [at_ inst] in *.
  exists (Bus c w (upd k i (k i + 1)) p). split; [|reflexivity].
  destruct R. cbn [clock wire inst at_] in *. subst c.
  constructor; cbn [put_job notify cnow cbus cpending cevents cjobs cretr cpops clog clock wire inst at_]; auto.
  - rewrite J1, J2. apply (br_step _ _ _ _ _ [Omitted (cnow st) i (k i) (release_of ts i (k i))] _ r_run0).
    apply bs_omit; auto; congruence.
  - destruct (cbus st) as [i0|]; [|assumption]. destruct r_wire0 as (s & W1 & W2 & W3 & W4 & W5 & W6).
    exists s. assert (i0 <> i) as Hne by congruence. apply PeanoNat.Nat.eqb_neq in Hne. rewrite Hne.
    repeat split; auto.
  - intros j t H. assert (j <> i) as Hne by (intros ->; apply Hn; apply in_rel_ids; eauto).
    apply PeanoNat.Nat.eqb_neq in Hne. rewrite Hne. auto.
  - intros j H1 H2 H3. assert (j <> i) as Hne by congruence.
    apply PeanoNat.Nat.eqb_neq in Hne. rewrite Hne. auto.
  - intros j H. destruct (Nat.eqb j i) eqn:E.
    + apply PeanoNat.Nat.eqb_eq in E. subst j. rewrite upd_same. cbn. rewrite J1, J2, release_next. auto.
    + apply PeanoNat.Nat.eqb_neq in E. rewrite upd_other by assumption. auto.
  - intros j H. destruct (Nat.eqb j i) eqn:E; [|auto]. apply PeanoNat.Nat.eqb_eq in E. subst j. cbn.
    apply (host_ok_later _ _ _ _ _ (r_host0 i Hi)). pose proof (positive_task ts i Hpos). lia.
Qed.

Lemma rel_add_ready : forall fuel ts fs st b i st',
  positive ts -> Rel ts fs (Some i) st b -> cj_release (cjobs st i) <= cnow st ->
  can_add_ready fuel ts (boot fs) st i = Some st' ->
  exists b', Rel ts fs None st' b' /\ wire b' = wire b.
Proof.
  induction fuel as [|f IH]; intros ts fs st b i st' Hpos R Hr H; cbn [can_add_ready] in H; [discriminate|].
  destruct (r_hand _ _ _ _ _ R i eq_refl) as (Hi & _ & _).
  pose proof (r_host _ _ _ _ _ R i Hi) as Hho.
  pose proof (rel_push_deadline _ _ _ _ _ i R Hi) as R1.
  destruct (if m_critical (msg_task ts i) then is_omission (boot fs) (cjobs st i) else (false, cj_faults (cjobs st i))) as [om hf] eqn:E.
  assert (Hhf : host_ok fs i (cj_release (cjobs st i)) hf /\
     (om = true -> m_critical (msg_task ts i) = true /\ down fs i (cj_release (cjobs st i))) /\
     (om = false -> same fs -> m_critical (msg_task ts i) = true -> ~ down fs i (cj_release (cjobs st i)))).
  { destruct (m_critical (msg_task ts i)).
    - destruct (host_ok_scan _ _ _ _ _ _ Hho E) as (A & B & C). split; [exact A|]. split; [auto|]. intros Hf Hs _. exact (C Hf Hs).
    - injection E as <- <-. split; [exact Hho|]. split; discriminate. }
  destruct Hhf as (Hhf & Hom1 & Hom2).
  pose proof (rel_put_faults _ _ _ _ _ i hf R1 Hhf) as R2.
  cbn [push_event cjobs] in R2.
  set (st2 := put_job _ i _) in *.
  assert (Hrel : cj_release (cjobs st2 i) = cj_release (cjobs st i)).
  { unfold st2. cbn. rewrite PeanoNat.Nat.eqb_refl. reflexivity. }
  assert (Hj : cj_release (cjobs st2 i) <= cnow st2) by (rewrite Hrel; exact Hr).
  destruct om.
  - destruct (Hom1 eq_refl) as (Hc & Hdown). rewrite <- Hrel in Hdown.
    destruct (rel_omit _ _ _ _ _ Hpos R2 Hj Hc Hdown) as (b1 & R3 & W3).
    unfold can_completed, can_add_release in H.
    set (st3 := put_job (notify st2 Omitted i) i _) in *.
    destruct (cnow st3 <=? cj_release (cjobs st3 i)) eqn:E2.
    + injection H as <-. exists b1. split; [exact (rel_future _ _ _ _ _ R3)|exact W3].
    + apply Z.leb_gt in E2. destruct (IH _ _ _ _ _ _ Hpos R3 ltac:(lia) H) as (b2 & R4 & W4).
      exists b2. split; [exact R4|congruence].
  - injection H as <-.
    destruct (rel_ready _ _ _ _ _ R2 Hj ltac:(rewrite Hrel; exact (Hom2 eq_refl))) as (b1 & R3 & W3). exists b1. auto.
Qed.

Lemma rel_add_release : forall fuel ts fs st b i st',
  positive ts -> Rel ts fs (Some i) st b ->
  can_add_release (can_add_ready fuel ts (boot fs)) st i = Some st' ->
  exists b', Rel ts fs None st' b' /\ wire b' = wire b.
Proof.
  intros fuel ts fs st b i st' Hpos R H. unfold can_add_release in H.
  destruct (cnow st <=? cj_release (cjobs st i)) eqn:E.
  - injection H as <-. exists b. split; [apply rel_future; exact R|reflexivity].
  - apply Z.leb_gt in E. eapply rel_add_ready; eauto. lia.
Qed.

(** a popped event leaves the queue *)
Lemma rel_pop : forall ts fs st b e l1 l2 n,
  Rel ts fs None st b -> cevents st = l1 ++ e :: l2 -> fst e <= cnow st ->
  Rel ts fs (match snd e with EvRelease i => Some i | _ => None end)
    (CANState (cnow st) (cbus st) (cpending st) (l1 ++ l2) (cjobs st) (cretr st) n (clog st)) b.
Proof.
  intros ts fs st b e l1 l2 n R He Ht.
  assert (Hin : forall x, In x (l1 ++ l2) -> In x (cevents st)).
  { intros x Hx. rewrite He. apply in_app_or in Hx. apply in_or_app. cbn. tauto. }
  assert (Hinv : forall x, In x (cevents st) -> x = e \/ In x (l1 ++ l2)).
  { intros x Hx. rewrite He in Hx. apply in_app_or in Hx. cbn in Hx. rewrite in_app_iff. intuition congruence. }
  destruct R. constructor; cbn [cnow cbus cpending cevents cjobs cretr cpops clog]; auto.
  - destruct (cbus st) as [i0|]; [|assumption]. destruct r_wire0 as (s & W1 & W2 & W3 & W4 & W5 & W6).
    exists s. repeat split; auto. destruct (Hinv _ W4) as [<-|H]; [cbn in Ht; lia|exact H].
  - rewrite He, rel_ids_app in r_evdup0. rewrite rel_ids_app. cbn in r_evdup0.
    destruct (snd e); cbn in r_evdup0; auto. apply NoDup_remove_1 in r_evdup0. exact r_evdup0.
  - intros j H1 H2 H3. destruct (Hinv _ (r_fut0 j H1 H2 ltac:(discriminate))) as [<-|H]; [|exact H].
    cbn in H3. congruence.
  - intros j H. destruct e as [t ev]. cbn in H. destruct ev; try discriminate. injection H as ->.
    assert (Hx : In (t, EvRelease j) (cevents st)) by (rewrite He; apply in_elt).
    destruct (r_ev0 _ _ Hx) as (A & B & _). repeat split; auto.
    rewrite He, rel_ids_app in r_evdup0. cbn in r_evdup0. apply NoDup_remove_2 in r_evdup0.
    rewrite rel_ids_app. exact r_evdup0.
Qed.

Lemma rel_fire : forall fuel ts fs st b e l1 l2 n st',
  positive ts -> Rel ts fs None st b -> cevents st = l1 ++ e :: l2 -> fst e <= cnow st ->
  can_fire fuel ts (boot fs) (CANState (cnow st) (cbus st) (cpending st) (l1 ++ l2) (cjobs st) (cretr st) n (clog st)) (snd e) = Some st' ->
  exists b', Rel ts fs None st' b' /\ wire b' = wire b.
Proof.
  intros fuel ts fs st b e l1 l2 n st' Hpos R He Ht H.
  pose proof (rel_pop _ _ _ _ _ _ _ n R He Ht) as R1.
  assert (Hin : In e (cevents st)) by (rewrite He; apply in_elt).
  destruct e as [t ev]. cbn [fst snd] in *. destruct ev as [i|i k r|]; cbn [can_fire] in H.
  - destruct (r_ev _ _ _ _ _ R _ _ Hin) as (_ & _ & ->).
    eapply rel_add_ready; [exact Hpos|exact R1| |exact H]. exact Ht.
  - injection H as <-. exists b. split; [|reflexivity].
    destruct (r_dl _ _ _ _ _ R _ _ _ _ Hin) as (Hi & -> & ->).
    destruct R1. cbn [cnow cbus cpending cevents cjobs cretr cpops clog] in *. constructor; auto.
    cbn [clog cnow]. destruct b as [c w k0 p]. cbn in r_clock0. subst c.
    apply (br_step _ _ _ _ _ [Expired (cnow st) i k (release_of ts i k)] _ r_run0). apply bs_expire; assumption.
  - injection H as <-. exists b. auto.
Qed.

Lemma rel_process : forall fuel pick ts fs st b st',
  positive ts -> Rel ts fs None st b -> can_process_events fuel pick ts (boot fs) st = Some st' ->
  (exists b', Rel ts fs None st' b' /\ wire b' = wire b) /\ forall e, In e (cevents st') -> cnow st' < fst e.
Proof.
  induction fuel as [|f IH]; intros pick ts fs st b st' Hpos R H; cbn [can_process_events] in H; [discriminate|].
  destruct (pop_min pick (cpops st) fst (cevents st)) as [[e rest]|] eqn:E.
  - apply pop_min_some in E. destruct E as (Em & l1 & l2 & He & ->).
    destruct (cnow st <? fst e) eqn:E2.
    + injection H as <-. apply Z.ltb_lt in E2. split; [exists b; auto|].
      intros e' He'. specialize (Em _ He'). lia.
    + apply Z.ltb_ge in E2. destruct (can_fire _ _ _ _ _) as [st1|] eqn:E3; [|discriminate].
      destruct (rel_fire _ _ _ _ _ _ _ _ _ _ Hpos R He E2 E3) as (b1 & R1 & W1).
      destruct (IH _ _ _ _ _ _ Hpos R1 H) as ((b2 & R2 & W2) & Hall).
      split; [exists b2; split; [exact R2|congruence]|exact Hall].
  - apply pop_min_none in E. injection H as <-. split; [exists b; auto|]. rewrite E. intros e [].
Qed.

(** * The steps of advance_time *)

(** between two calls of advance_time *)
Definition Settled (ts : list cantask) (fs : env) (st : canstate) (b : busstate) : Prop :=
  Rel ts fs None st b /\ (forall e, In e (cevents st) -> cnow st <= fst e) /\
  (cbus st = None -> cpending st = []) /\ (forall g, wire b = FreeFrom g -> g <= cnow st).

(** the clock alone moves *)
Lemma rel_tick : forall ts fs h st b t,
  Rel ts fs h st b -> cbus st = None ->
  bus_step ts fs b [] (Bus t (wire b) (inst b) (at_ b)) ->
  Rel ts fs h (CANState t (cbus st) (cpending st) (cevents st) (cjobs st) (cretr st) (cpops st) (clog st)) (Bus t (wire b) (inst b) (at_ b)).
Proof.
  intros ts fs h st b t R Hb S0. destruct R.
  constructor; cbn [cnow cbus cpending cevents cjobs cretr cpops clog clock wire inst at_]; auto.
  - apply (br_step _ _ _ _ _ [] _ r_run0 S0).
  - rewrite Hb in *. exact r_wire0.
Qed.

(** while a frame is transmitted *)
Lemma rel_busy_tick : forall ts fs st b i s t,
  Rel ts fs None st b -> cbus st = Some i -> wire b = Busy i s -> cnow st <= t -> t < s + m_cost (msg_task ts i) ->
  (forall e, In e (cevents st) -> t <= fst e) ->
  Rel ts fs None (put_job (CANState t (Some i) (cpending st) (cevents st) (cjobs st) (cretr st) (cpops st) (clog st)) i
     (CANJob (cj_release (cjobs st i)) (cj_alloc (cjobs st i) + (t - cnow st)) (cj_seqno (cjobs st i)) (cj_faults (cjobs st i))))
     (Bus t (wire b) (inst b) (at_ b)).
Proof.
  intros ts fs st b i s t R Hb Hw H1 H2 Hev.
  destruct b as [c w k p]. cbn [clock wire inst at_] in *. subst w.
  destruct R. cbn [clock wire inst at_] in *. subst c.
  rewrite Hb in r_wire0. destruct r_wire0 as (s' & W1 & W2 & W3 & W4 & W5 & W6). injection W1 as <-.
  constructor; cbn [put_job cnow cbus cpending cevents cjobs cretr cpops clog clock wire inst at_]; auto.
  - apply (br_step _ _ _ _ _ [] _ r_run0). apply bs_transmit; [lia|lia|].
    intros j Hj Hp. destruct (r_job0 j Hj) as (_ & A & _). rewrite <- A.
    apply (Hev _ (r_fut0 j Hj Hp ltac:(discriminate))).
  - exists s. rewrite PeanoNat.Nat.eqb_refl. cbn. repeat split; auto. lia.
  - intros j t' H. destruct (Nat.eqb j i) eqn:E; [|auto]. apply PeanoNat.Nat.eqb_eq in E. subst j. cbn. auto.
  - intros j A B C. destruct (Nat.eqb j i) eqn:E; [|auto]. apply PeanoNat.Nat.eqb_eq in E. subst j. congruence.
  - intros j Hj. destruct (Nat.eqb j i) eqn:E; [|auto]. apply PeanoNat.Nat.eqb_eq in E. subst j. cbn.
    destruct (r_job0 i Hj) as (A1 & A2 & _). repeat split; auto. congruence.
  - intros j A B. specialize (r_send0 j A B). congruence.
  - intros j Hj. destruct (Nat.eqb j i) eqn:E; [|auto]. apply PeanoNat.Nat.eqb_eq in E. subst j. cbn. auto.
Qed.

(** a disturbed frame *)
Lemma rel_error : forall ts fs st b i s t retr j0,
  positive ts -> Rel ts fs None st b -> cbus st = Some i -> wire b = Busy i s -> cnow st <= t -> t = s + m_cost (msg_task ts i) ->
  (forall e, In e (cevents st) -> t <= fst e) ->
  is_retransmission s t (cretr st) = (true, retr) ->
  cj_release j0 = cj_release (cjobs st i) -> cj_seqno j0 = cj_seqno (cjobs st i) -> cj_faults j0 = cj_faults (cjobs st i) ->
  exists b',
  Rel ts fs None (delay (retransmit (notify
      (CANState t None (cpending st) (cevents st) (fun i' => if Nat.eqb i' i then j0 else cjobs st i') retr (cpops st) (clog st))
      Retransmitted i) i) 29) b'
  /\ wire b' = FreeFrom (t + 29) .
Proof.
  intros ts fs st b i s t retr j0 Hpos R Hb Hw H1 H2 Hev Hf Hj1 Hj2 Hj3.
  destruct b as [c w k p]. cbn [clock wire inst at_] in *. subst w.
  destruct R. cbn [clock wire inst at_] in *. subst c.
  rewrite Hb in r_wire0. destruct r_wire0 as (s' & W1 & W2 & W3 & W4 & W5 & W6). injection W1 as <-.
  destruct (is_retransmission_spec _ _ _ _ _ r_sorted0 Hf) as (F1 & F2 & F3 & F4).
  destruct (r_job0 i W5) as (J1 & J2 & _).
  exists (Bus (t + 29) (FreeFrom (t + 29)) k (upd p i Waiting)). split; [|reflexivity].
  constructor; cbn [delay retransmit push_pending put_job notify cnow cbus cpending cevents cjobs cretr cpops clog clock wire inst at_ floor_of];
    rewrite ?PeanoNat.Nat.eqb_refl; cbn [cj_release cj_seqno cj_alloc cj_faults].
  - rewrite Hj1, Hj2, J1, J2.
    assert (B1 : bus_run ts fs bus_init (clog st) (Bus t (Busy i s) k p)).
    { apply (br_step _ _ _ _ _ [] _ r_run0). apply bs_transmit; [lia|lia|].
      intros j Hj Hp. destruct (r_job0 j Hj) as (_ & A & _). rewrite <- A.
      apply (Hev _ (r_fut0 j Hj Hp ltac:(discriminate))). }
    assert (B2 : bus_run ts fs bus_init
       ([Released t i (k i) (release_of ts i (k i)); Retransmitted t i (k i) (release_of ts i (k i))] ++ clog st)
       (Bus t (FreeFrom (t + 29)) k (upd p i Waiting))).
    { apply (br_step _ _ _ _ _ _ _ B1). apply bs_error; [exact H2|].
      destruct (proj1 F4 eq_refl) as (f & Hin & Hr). exists f. split; [apply r_incl0, Hin|exact Hr]. }
    apply (br_step _ _ _ _ _ [] _ B2). apply bs_gap; lia.
  - reflexivity.
  - eauto.
  - assert (Hni : ~ In i (cpending st)) by (intros H; apply r_pend0 in H; destruct H; congruence).
    clear - r_nodup0 Hni. induction (cpending st) as [|a l IH]; cbn; [constructor; [auto|constructor]|].
    inversion r_nodup0; subst. constructor.
    + intros H. apply in_app_or in H. destruct H as [H|[H|[]]]; [auto|]. subst. apply Hni. left. reflexivity.
    + apply IH; [assumption|]. intros H. apply Hni. right. exact H.
  - intros j. rewrite in_app_iff. cbn. destruct (PeanoNat.Nat.eq_dec j i) as [->|Hne].
    + rewrite upd_same. split; auto.
    + rewrite upd_other by assumption. rewrite r_pend0. split; [intros [H|[H|[]]]; [exact H|congruence]|auto].
  - assumption.
  - intros j t' H. assert (Hne : j <> i) by (intros ->; destruct (r_ev0 _ _ H) as (_ & A & _); congruence).
    rewrite upd_other by assumption. apply PeanoNat.Nat.eqb_neq in Hne. rewrite Hne. auto.
  - intros j A B C. assert (Hne : j <> i) by (intros ->; rewrite upd_same in B; discriminate).
    rewrite upd_other in B by assumption. apply PeanoNat.Nat.eqb_neq in Hne. rewrite Hne. auto.
  - intros j H. discriminate.
  - intros j Hj. destruct (Nat.eqb j i) eqn:E.
    + apply PeanoNat.Nat.eqb_eq in E. subst j. cbn. rewrite Hj1, Hj2. auto.
    + apply PeanoNat.Nat.eqb_neq in E. rewrite upd_other by assumption. auto.
  - intros j A B. exfalso. assert (Hne : j <> i) by (intros ->; rewrite upd_same in B; discriminate).
    rewrite upd_other in B by assumption. specialize (r_send0 j A B). congruence.
  - auto.
  - exact F1.
  - intros f Hin. apply r_incl0, F2, Hin.
  - intros f Hin. destruct (r_used0 f Hin) as [A|A].
    + destruct (F3 f A) as [B|B]; [left; exact B|right; lia].
    + right. cbn in A. pose proof (positive_task ts i Hpos). lia.
  - intros j Hj. destruct (Nat.eqb j i) eqn:E; [|auto]. apply PeanoNat.Nat.eqb_eq in E. subst j. cbn.
    rewrite Hj1, Hj3. auto.
Qed.

(** an undisturbed frame: the next instance is in hand *)
Lemma rel_done : forall ts fs st b i s t retr j0 hf,
  positive ts -> Rel ts fs None st b -> cbus st = Some i -> wire b = Busy i s -> cnow st <= t -> t = s + m_cost (msg_task ts i) ->
  (forall e, In e (cevents st) -> t <= fst e) ->
  is_retransmission s t (cretr st) = (false, retr) ->
  cj_release j0 = cj_release (cjobs st i) -> cj_seqno j0 = cj_seqno (cjobs st i) ->
  let st2 := CANState t None (cpending st) (cevents st) (fun i' => if Nat.eqb i' i then j0 else cjobs st i') retr (cpops st) (clog st) in
  let st4 := put_job (notify st2 Completed i) i hf in
  cj_release hf = cj_release (cjobs st i) -> cj_seqno hf = cj_seqno (cjobs st i) ->
  host_ok fs i (cj_release (cjobs st i)) (cj_faults hf) ->
  exists b', Rel ts fs (Some i) (put_job st4 i (can_init_next (msg_task ts i) (cjobs st4 i))) b' /\ wire b' = FreeFrom (t + 3).
Proof.
  intros ts fs st b i s t retr j0 hf Hpos R Hb Hw H1 H2 Hev Hf Hj1 Hj2 st2 st4 Hh1 Hh2 Hh3.
  destruct b as [c w k p]. cbn [clock wire inst at_] in *. subst w.
  destruct R. cbn [clock wire inst at_] in *. subst c.
  rewrite Hb in r_wire0. destruct r_wire0 as (s' & W1 & W2 & W3 & W4 & W5 & W6). injection W1 as <-.
  destruct (is_retransmission_spec _ _ _ _ _ r_sorted0 Hf) as (F1 & F2 & F3 & F4).
  destruct (r_job0 i W5) as (J1 & J2 & _).
  exists (Bus t (FreeFrom (t + 3)) (upd k i (k i + 1)) (upd p i Future)). split; [|reflexivity].
  unfold st4, st2.
  constructor; cbn [put_job notify cnow cbus cpending cevents cjobs cretr cpops clog clock wire inst at_ floor_of];
    rewrite ?PeanoNat.Nat.eqb_refl; cbn [can_init_next cj_release cj_seqno cj_alloc cj_faults].
  - rewrite Hj1, Hj2, J1, J2.
    assert (B1 : bus_run ts fs bus_init (clog st) (Bus t (Busy i s) k p)).
    { apply (br_step _ _ _ _ _ [] _ r_run0). apply bs_transmit; [lia|lia|].
      intros j Hj Hp. destruct (r_job0 j Hj) as (_ & A & _). rewrite <- A.
      apply (Hev _ (r_fut0 j Hj Hp ltac:(discriminate))). }
    apply (br_step _ _ _ _ _ [Completed t i (k i) (release_of ts i (k i))] _ B1). apply bs_done; [exact H2|].
    intros f Hin Hr. destruct (r_used0 f Hin) as [A|A]; [|cbn in A; lia].
    assert (false = true) by (apply F4; exists f; auto). discriminate.
  - reflexivity.
  - eauto.
  - assumption.
  - intros j. rewrite r_pend0. destruct (PeanoNat.Nat.eq_dec j i) as [->|Hne].
    + rewrite upd_same. split; intros (_ & A); congruence.
    + rewrite upd_other by assumption. reflexivity.
  - assumption.
  - intros j t' H. assert (Hne : j <> i) by (intros ->; destruct (r_ev0 _ _ H) as (_ & A & _); congruence).
    rewrite upd_other by assumption. apply PeanoNat.Nat.eqb_neq in Hne. rewrite Hne. auto.
  - intros j A B C. assert (Hne : j <> i) by congruence.
    rewrite upd_other in B by assumption. apply PeanoNat.Nat.eqb_neq in Hne. rewrite Hne. apply r_fut0; auto. discriminate.
  - intros j H. injection H as <-. rewrite upd_same. repeat split; auto.
    intros H. apply in_rel_ids in H. destruct H as (t' & H). destruct (r_ev0 _ _ H) as (_ & A & _). congruence.
  - intros j Hj. destruct (Nat.eqb j i) eqn:E.
    + apply PeanoNat.Nat.eqb_eq in E. subst j. rewrite upd_same. cbn. rewrite Hh1, Hh2, J1, J2, release_next. auto.
    + apply PeanoNat.Nat.eqb_neq in E. rewrite !upd_other by assumption. auto.
  - intros j A B. exfalso. assert (Hne : j <> i) by (intros ->; rewrite upd_same in B; discriminate).
    rewrite upd_other in B by assumption. specialize (r_send0 j A B). congruence.
  - auto.
  - exact F1.
  - intros f Hin. apply r_incl0, F2, Hin.
  - intros f Hin. destruct (r_used0 f Hin) as [A|A].
    + destruct (F3 f A) as [B|B]; [left; exact B|right; lia].
    + right. cbn in A. pose proof (positive_task ts i Hpos). lia.
  - intros j Hj. destruct (Nat.eqb j i) eqn:E; [|auto]. apply PeanoNat.Nat.eqb_eq in E. subst j. cbn.
    rewrite Hh1. apply (host_ok_later _ _ _ _ _ Hh3). pose proof (positive_task ts i Hpos). lia.
Qed.

Definition callback_ok (fs : env) (cb : list obs -> list Z -> list Z) : Prop :=
  (forall l x, incl (cb l x) x) /\ (same fs -> forall l x, cb l x = x).

Lemma host_ok_callback : forall fs cb j r l x, callback_ok fs cb -> host_ok fs j r x -> host_ok fs j r (cb l x).
Proof.
  intros fs cb j r l x (C1 & C2) (A & B). split; [intros f Hf; apply A, (C1 l x), Hf|].
  intros Hs. rewrite (C2 Hs). apply B, Hs.
Qed.

Lemma rel_progress : forall fuel ts fs cb st b st' t,
  positive ts -> callback_ok fs cb -> Settled ts fs st b ->
  (forall e, In e (cevents st) -> t <= fst e) -> cnow st <= t ->
  can_progress fuel ts (boot fs) cb st t = Some st' ->
  exists b', Rel ts fs None st' b' /\ (forall g, wire b' = FreeFrom g -> g <= cnow st').
Proof.
  intros fuel ts fs cb st b st' t Hpos Hcb (R & Hge & Hidle & Hfree) Hev Ht H.
  unfold can_progress in H. destruct (cbus st) as [i|] eqn:Eb.
  - pose proof (r_wire _ _ _ _ _ R) as W. rewrite Eb in W. destruct W as (s & W1 & W2 & W3 & W4 & W5 & W6).
    pose proof (Hev _ W4) as Hle. cbn [fst] in Hle.
    cbn [cj_alloc] in H.
    destruct (m_cost (msg_task ts i) <=? cj_alloc (cjobs st i) + (t - cnow st)) eqn:Ec.
    + apply Z.leb_le in Ec. assert (Et : t = s + m_cost (msg_task ts i)) by lia.
      replace (t - m_cost (msg_task ts i)) with s in H by lia.
      destruct (is_retransmission s t (cretr st)) as [hit retr] eqn:Er.
      destruct hit.
      * injection H as <-.
        destruct (rel_error _ _ _ _ _ _ _ _ (CANJob (cj_release (cjobs st i)) (cj_alloc (cjobs st i) + (t - cnow st)) (cj_seqno (cjobs st i)) (cj_faults (cjobs st i))) Hpos R Eb W1 Ht Et Hev Er eq_refl eq_refl eq_refl) as (b1 & R1 & Wb).
        exists b1. split; [exact R1|]. intros g Hg. rewrite Wb in Hg. injection Hg as <-. cbn. lia.
      * set (j0 := CANJob (cj_release (cjobs st i)) (cj_alloc (cjobs st i) + (t - cnow st)) (cj_seqno (cjobs st i)) (cj_faults (cjobs st i))) in *.
        cbn [put_job cpending cevents cjobs cpops clog] in H.
        set (st3 := notify (CANState t None (cpending st) (cevents st) (fun i' => if Nat.eqb i' i then j0 else cjobs st i') retr (cpops st) (clog st)) Completed i) in *.
        set (hf := CANJob (cj_release j0) (cj_alloc j0) (cj_seqno j0) (cb (clog st3) (cj_faults j0))) in *.
        cbv zeta in H.
        match type of H with match ?x with _ => _ end = _ => change x with (can_completed (can_add_ready fuel ts (boot fs)) ts (put_job st3 i hf) i) in H end.
        destruct (can_completed (can_add_ready fuel ts (boot fs)) ts (put_job st3 i hf) i) as [st5|] eqn:E5; [|discriminate].
        injection H as <-.
        destruct (rel_done _ _ _ _ _ _ _ _ j0 hf Hpos R Eb W1 Ht Et Hev Er eq_refl eq_refl eq_refl eq_refl (host_ok_callback _ _ _ _ _ _ Hcb (r_host _ _ _ _ _ R i W5))) as (b1 & R1 & Wb).
        unfold can_completed in E5. 
        destruct (rel_add_release _ _ _ _ _ _ _ Hpos R1 E5) as (b2 & R2 & W2').
        rewrite Wb in W2'.
        assert (Hn5 : cnow st5 = t /\ cbus st5 = None).
        { clear - E5. assert (G : forall fuel st i st', can_add_ready fuel ts (boot fs) st i = Some st' -> cnow st' = cnow st /\ cbus st' = cbus st).
          { induction fuel0 as [|f IH]; intros st0 i0 st' H; cbn [can_add_ready] in H; [discriminate|].
            destruct (if m_critical _ then _ else _) as [om hf0]. destruct om.
            - unfold can_completed, can_add_release in H. destruct (_ <=? _).
              + injection H as <-. auto.
              + apply IH in H. exact H.
            - injection H as <-. auto. }
          unfold can_add_release in E5. destruct (_ <=? _).
          - injection E5 as <-. auto.
          - apply G in E5. exact E5. }
        destruct Hn5 as (N1 & N2).
        assert (S0 : bus_step ts fs b2 [] (Bus (t + 3) (wire b2) (inst b2) (at_ b2))).
        { pose proof (r_clock _ _ _ _ _ R2) as Hc. destruct b2 as [c w k p]. cbn in *. subst w c. rewrite N1. apply bs_gap; lia. }
        exists (Bus (t + 3) (wire b2) (inst b2) (at_ b2)).
        split; [|cbn; rewrite W2', N1; intros g Hg; injection Hg as <-; lia].
        unfold delay. rewrite N1. apply rel_tick; auto.
    + apply Z.leb_gt in Ec. injection H as <-.
      eexists. split; [eapply rel_busy_tick; eauto; lia|].
      cbn [wire]. intros g Hg. congruence.
  - injection H as <-. exists (Bus t (wire b) (inst b) (at_ b)).
    pose proof (r_wire _ _ _ _ _ R) as W. rewrite Eb in W. destruct W as (g0 & W).
    split.
    + pose proof (rel_tick ts fs None st b t R Eb) as T. rewrite Eb in T. apply T. clear T.
      pose proof (r_clock _ _ _ _ _ R) as Hc. pose proof (Hfree _ W) as Hg. destruct b as [c w k p]. cbn in *. subst w c.
      apply bs_idle; auto.
      * intros j Hj Hp. assert (In j (cpending st)) as Hin by (apply (r_pend _ _ _ _ _ R); auto).
        rewrite (Hidle eq_refl) in Hin. destruct Hin.
      * intros j Hj Hp. destruct (r_job _ _ _ _ _ R j Hj) as (_ & A & _). cbn in A. rewrite <- A.
        apply (Hev _ (r_fut _ _ _ _ _ R j Hj Hp ltac:(discriminate))).
    + cbn. intros g Hg. specialize (Hfree _ Hg). lia.
Qed.

Lemma update_seqno_spec : forall t time j k,
  0 < m_period t -> cj_seqno j = k -> cj_release j = (k - 1) * m_period t -> cj_release j <= time ->
  exists q, cj_seqno (update_seqno t time j) = q /\ cj_release (update_seqno t time j) = (q - 1) * m_period t
    /\ cj_alloc (update_seqno t time j) = cj_alloc j /\ cj_faults (update_seqno t time j) = cj_faults j
    /\ k <= q /\ (q - 1) * m_period t <= time + 1 < q * m_period t.
Proof.
  intros t time j k Hp Hk Hr Hle. unfold update_seqno.
  pose proof (Z.div_mod (time + 1) (m_period t) ltac:(lia)) as D.
  pose proof (Z.mod_pos_bound (time + 1) (m_period t) Hp) as M.
  set (d := (time + 1) / m_period t) in *.
  assert (Hd : k - 1 <= d) by (apply Z.div_le_lower_bound; [exact Hp|]; lia).
  destruct (cj_seqno j <? d + 1) eqn:E.
  - apply Z.ltb_lt in E. exists (d + 1). cbn. repeat split; nia.
  - apply Z.ltb_ge in E. exists k. rewrite Hk in E. assert (k = d + 1) by lia. subst k. repeat split; try assumption; nia.
Qed.

(** a message waits only after its release *)
Lemma run_waiting : forall ts fs l b, positive ts ->
  bus_run ts fs bus_init l b ->
  (forall j, at_ b j = Waiting -> release_of ts j (inst b j) <= clock b) /\
  (forall j s, wire b = Busy j s -> s <= clock b /\ release_of ts j (inst b j) <= s + 1 /\ at_ b j = Sending).
Proof.
  intros ts fs l b Hpos H. remember bus_init as b0. induction H as [b0|b0 l b' o b'' H IH Hs].
  - subst. split; [intros j H|intros j s H]; cbn in H; discriminate.
  - destruct (IH Heqb0) as (I1 & I2). clear IH Heqb0 H.
    destruct Hs; cbn [clock wire inst at_] in *;
      try (split; [intros j' Hp'; specialize (I1 j' Hp'); lia|
                   intros j' s' Hp'; try discriminate; destruct (I2 j' s' Hp') as (A & B & C); repeat split; auto; lia]; fail).
    + split.
      * intros j Hp. destruct (PeanoNat.Nat.eq_dec j i) as [->|Hne]; [assumption|]. rewrite upd_other in Hp by assumption. auto.
      * intros j s Hw. destruct (I2 j s Hw) as (A & B & C). assert (j <> i) by congruence. rewrite upd_other by assumption. auto.
    + split.
      * intros j Hp. assert (j <> i) by congruence. rewrite upd_other by assumption. auto.
      * intros j s Hw. destruct (I2 j s Hw) as (A & B & C). assert (j <> i) by congruence. rewrite upd_other by assumption. auto.
    + split.
      * intros j Hp. destruct (PeanoNat.Nat.eq_dec j i) as [->|Hne]; [rewrite upd_same in Hp; discriminate|].
        rewrite upd_other in * by assumption. auto.
      * intros j s Hw. injection Hw as <- <-. rewrite !upd_same. repeat split; lia.
    + split; [|discriminate]. intros j Hp.
      destruct (PeanoNat.Nat.eq_dec j i) as [->|Hne]; [rewrite upd_same in Hp; discriminate|].
      rewrite upd_other in * by assumption. auto.
    + split; [|discriminate]. intros j Hp.
      destruct (PeanoNat.Nat.eq_dec j i) as [->|Hne]; [|rewrite upd_other in * by assumption; auto].
      destruct (I2 i s eq_refl) as (A & B & C). pose proof (positive_task ts i Hpos). lia.
Qed.

Lemma rel_schedule : forall pick ts fs st b,
  positive ts -> Rel ts fs None st b -> (forall e, In e (cevents st) -> cnow st < fst e) ->
  (forall g, wire b = FreeFrom g -> g <= cnow st) ->
  exists b', Settled ts fs (can_schedule pick ts st) b'.
Proof.
  intros pick ts fs st b Hpos R Hev Hfree. unfold can_schedule.
  destruct (cbus st) as [i0|] eqn:Eb.
  - exists b. split; [exact R|]. split; [intros e He; specialize (Hev e He); lia|]. split; [congruence|exact Hfree].
  - destruct (pop_min pick (cpops st) (fun i => m_priority (msg_task ts i)) (cpending st)) as [[i rest]|] eqn:Ep.
    2: { apply pop_min_none in Ep. exists b. split; [exact R|]. split; [intros e He; specialize (Hev e He); lia|]. split; [auto|exact Hfree]. }
    apply pop_min_some in Ep. destruct Ep as (Em & l1 & l2 & Hl & ->).
    assert (Hin : In i (cpending st)) by (rewrite Hl; apply in_elt).
    destruct (proj1 (r_pend _ _ _ _ _ R i) Hin) as (Hi & Hw).
    destruct (r_job _ _ _ _ _ R i Hi) as (J1 & J2 & J3).
    destruct (run_waiting _ _ _ _ Hpos (r_run _ _ _ _ _ R)) as (Q1 & _).
    pose proof (Q1 i Hw) as Hrel. rewrite (r_clock _ _ _ _ _ R) in Hrel. rewrite <- J2 in Hrel.
    destruct (positive_task ts i Hpos) as (PC & PP).
    destruct (update_seqno_spec (msg_task ts i) (cnow st) (cjobs st i) _ PP J1 J2 Hrel) as (q & U1 & U2 & U3 & U6 & U4 & U5).
    set (j := update_seqno (msg_task ts i) (cnow st) (cjobs st i)) in *.
    rewrite (J3 ltac:(congruence)) in U3. rewrite U3.
    pose proof (r_wire _ _ _ _ _ R) as W. rewrite Eb in W. destruct W as (g & W). specialize (Hfree _ W).
    destruct b as [c w k p]. destruct R. cbn [clock wire inst at_] in *. subst w c.
    exists (Bus (cnow st) (Busy i (cnow st)) (upd k i q) (upd p i Sending)).
    split; [|split; [|split; [discriminate|discriminate]]].
    2: { cbn. intros e He. apply in_app_or in He. destruct He as [He|[<-|[]]]; [specialize (Hev e He); lia|]. cbn. lia. }
    constructor; cbn [push_event put_job notify cnow cbus cpending cevents cjobs cretr cpops clog clock wire inst at_ floor_of];
      rewrite ?PeanoNat.Nat.eqb_refl.
    + rewrite U1, U2. change ((q - 1) * m_period (msg_task ts i)) with (release_of ts i q).
      apply (br_step _ _ _ _ _ [Scheduled (cnow st) i q (release_of ts i q)] _ r_run0). apply bs_start; auto.
      * intros j' Hj Hp. destruct (r_job0 j' Hj) as (_ & A & _). rewrite <- A.
        apply (Hev _ (r_fut0 j' Hj Hp ltac:(discriminate))).
      * intros j' Hj Hp. apply Em. apply r_pend0. auto.
      * unfold release_of. replace (q + 1 - 1) with q by lia. exact U5.
    + reflexivity.
    + exists (cnow st). rewrite U3, upd_same. repeat split; auto; try lia. apply in_or_app. right. left. f_equal. lia.
    + rewrite Hl in r_nodup0. apply NoDup_remove_1 in r_nodup0. exact r_nodup0.
    + intros j'. rewrite Hl in r_nodup0. pose proof (NoDup_remove_2 _ _ _ r_nodup0) as Hn.
      destruct (PeanoNat.Nat.eq_dec j' i) as [->|Hne].
      * rewrite upd_same. split; [intros A; contradiction|intros (_ & A); discriminate].
      * rewrite upd_other by assumption. rewrite <- r_pend0, Hl, !in_app_iff. cbn. intuition congruence.
    + rewrite rel_ids_app. cbn. rewrite app_nil_r. assumption.
    + intros j' t H. apply in_app_or in H. destruct H as [H|[H|[]]]; [|discriminate].
      destruct (r_ev0 _ _ H) as (A & B & C). assert (Hne : j' <> i) by congruence. rewrite upd_other by assumption.
      apply PeanoNat.Nat.eqb_neq in Hne. rewrite Hne. auto.
    + intros j' A B _. assert (Hne : j' <> i) by (intros ->; rewrite upd_same in B; discriminate).
      rewrite upd_other in B by assumption. apply PeanoNat.Nat.eqb_neq in Hne. rewrite Hne.
      apply in_or_app. left. apply r_fut0; auto. discriminate.
    + discriminate.
    + intros j' Hj. destruct (Nat.eqb j' i) eqn:E.
      * apply PeanoNat.Nat.eqb_eq in E. subst j'. rewrite !upd_same. repeat split; auto.
      * apply PeanoNat.Nat.eqb_neq in E. rewrite !upd_other by assumption. auto.
    + intros j' A B. destruct (PeanoNat.Nat.eq_dec j' i) as [->|Hne]; [reflexivity|].
      rewrite upd_other in B by assumption. specialize (r_send0 j' A B). congruence.
    + intros t j' k' r H. apply in_app_or in H. destruct H as [H|[H|[]]]; [eauto|discriminate].
    + assumption.
    + assumption.
    + intros f Hf. destruct (r_used0 f Hf) as [A|A]; [left; exact A|right; cbn in A; lia].
    + intros j' Hj. destruct (Nat.eqb j' i) eqn:E; [|auto]. apply PeanoNat.Nat.eqb_eq in E. subst j'.
      rewrite U6, U2. apply (host_ok_later _ _ _ _ _ (r_host0 i Hi)). rewrite J2. unfold release_of. nia.
Qed.

Lemma settled_advance : forall fuel pick ts fs cb st b st' e r,
  positive ts -> callback_ok fs cb -> Settled ts fs st b -> pop_min pick (cpops st) fst (cevents st) = Some (e, r) ->
  can_advance_time fuel pick ts (boot fs) cb st (fst e) = Some st' -> exists b', Settled ts fs st' b'.
Proof.
  intros fuel pick ts fs cb st b st' e r Hpos Hcb Hs Hp H.
  apply pop_min_some in Hp. destruct Hp as (Hmin & l1 & l2 & Hl & _).
  assert (Hin : In e (cevents st)) by (rewrite Hl; apply in_elt).
  unfold can_advance_time in H.
  destruct (can_progress fuel ts (boot fs) cb st (fst e)) as [st1|] eqn:E1; [|discriminate].
  destruct (rel_progress _ _ _ _ _ _ _ _ Hpos Hcb Hs Hmin (proj1 (proj2 Hs) e Hin) E1) as (b1 & R1 & F1).
  destruct (can_process_events fuel pick ts (boot fs) st1) as [st2|] eqn:E2; [|discriminate].
  injection H as <-. destruct (rel_process _ _ _ _ _ _ _ Hpos R1 E2) as ((b2 & R2 & W2) & Hall).
  eapply rel_schedule; eauto. intros g Hg.
  assert (N : cnow st2 = cnow st1).
  { clear - E2.
    assert (G : forall fuel st i st', can_add_ready fuel ts (boot fs) st i = Some st' -> cnow st' = cnow st).
    { induction fuel0 as [|f IH]; intros st0 i0 st' H; cbn [can_add_ready] in H; [discriminate|].
      destruct (if m_critical _ then _ else _) as [om hf0]. destruct om.
      - unfold can_completed, can_add_release in H. destruct (_ <=? _); [injection H as <-; reflexivity|].
        apply IH in H. exact H.
      - injection H as <-. reflexivity. }
    revert st1 E2. induction fuel as [|f IH]; intros st1 H; cbn [can_process_events] in H; [discriminate|].
    destruct (pop_min _ _ _ _) as [[e rest]|]; [|injection H as <-; reflexivity].
    destruct (_ <? _); [injection H as <-; reflexivity|].
    destruct (can_fire _ _ _ _ _) as [st3|] eqn:E3; [|discriminate].
    apply IH in H. rewrite H. destruct (snd e); cbn [can_fire] in E3.
    - apply G in E3. exact E3.
    - injection E3 as <-. reflexivity.
    - injection E3 as <-. reflexivity. }
  rewrite N. apply F1. congruence.
Qed.

Lemma settled_simulate : forall fuel pick ts fs cb ab stop st b st',
  positive ts -> callback_ok fs cb -> Settled ts fs st b -> can_simulate_until fuel pick ts (boot fs) cb ab stop st = Some st' ->
  exists b', Settled ts fs st' b'.
Proof.
  induction fuel as [|f IH]; intros pick ts fs cb ab stop st b st' Hpos Hcb Hs H; cbn [can_simulate_until] in H; [discriminate|].
  destruct ((cnow st <=? stop) && negb (ab (clog st))); [|injection H as <-; eauto].
  destruct (pop_min pick (cpops st) fst (cevents st)) as [[e r]|] eqn:E; [|injection H as <-; eauto].
  destruct (can_advance_time f pick ts (boot fs) cb st (fst e)) as [st1|] eqn:E1; [|discriminate].
  destruct (settled_advance _ _ _ _ _ _ _ _ _ _ Hpos Hcb Hs E E1) as (b1 & S1). eapply IH; eauto.
Qed.

(** the jobs are added at time 0 *)
Lemma add_jobs_events : forall fuel ts boot l st, cnow st = 0 -> (forall i, cj_release (cjobs st i) = 0) ->
  can_add_jobs fuel ts boot l st =
  Some (CANState 0 (cbus st) (cpending st) (cevents st ++ map (fun i => (0, EvRelease i)) l) (cjobs st) (cretr st) (cpops st) (clog st)).
Proof.
  induction l as [|i l IH]; intros st H1 H2; cbn [can_add_jobs map].
  - rewrite app_nil_r, <- H1. destruct st; reflexivity.
  - unfold can_add_release. rewrite H1, H2. cbn [Z.leb Z.compare]. rewrite IH by (cbn; auto).
    cbn. rewrite <- app_assoc. reflexivity.
Qed.

Lemma simulation_settled : forall fuel pick ts fs cb ab stop st,
  positive ts -> callback_ok fs cb -> StronglySorted Z.le (wire_faults fs) ->
  (same fs -> forall j, StronglySorted Z.le (host_faults fs j)) ->
  can_simulation fuel pick ts (boot fs) cb ab (host_faults fs) (wire_faults fs) stop = Some st -> exists b, Settled ts fs st b.
Proof.
  intros fuel pick ts fs cb ab stop st Hpos Hcb Hso Hho H. unfold can_simulation in H.
  rewrite add_jobs_events in H by reflexivity. cbn [can_init cbus cpending cevents cjobs cretr cpops clog app] in H.
  eapply (settled_simulate _ _ _ fs _ _ _ _ bus_init); [exact Hpos|exact Hcb| |exact H].
  split; [|split; [|split]].
  - assert (Hin : forall x, In x (map (fun i => (0, EvRelease i)) (seq 0 (length ts))) <-> exists j, x = (0, EvRelease j) /\ (j < length ts)%nat).
    { intros x. rewrite in_map_iff. split; intros (j & A & B).
      - apply in_seq in B. exists j. split; [auto|lia].
      - exists j. split; [auto|]. apply in_seq. lia. }
    constructor; cbn [cnow cbus cpending cevents cjobs cretr cpops clog bus_init clock wire inst at_ floor_of cj_release cj_seqno cj_alloc].
    + constructor.
    + reflexivity.
    + eauto.
    + constructor.
    + intros j. split; [intros []|intros (_ & A); discriminate].
    + assert (E : forall l, rel_ids (map (fun i => (0, EvRelease i)) l) = l) by (induction l as [|a l IHl]; [reflexivity|]; cbn; f_equal; exact IHl).
      rewrite E. apply seq_NoDup.
    + intros j t A. apply Hin in A. destruct A as (j' & A & B). injection A as -> ->. auto.
    + intros j A _ _. apply Hin. eauto.
    + discriminate.
    + intros j A. repeat split.
    + discriminate.
    + intros t j k r A. apply Hin in A. destruct A as (j' & A & _). discriminate.
    + exact Hso.
    + apply incl_refl.
    + auto.
    + intros j _. split; [apply incl_refl|]. intros Hs. split; [apply Hho, Hs|auto].
  - cbn. intros e He. apply in_map_iff in He. destruct He as (j & <- & _). cbn. lia.
  - reflexivity.
  - cbn. intros g Hg. injection Hg as <-. lia.
Qed.

(** the events pushed while an event fires are not earlier than that event *)
Lemma fire_pushes_later : forall fuel ts boot st i st' e,
  (forall t, In t ts -> 0 <= m_period t /\ 0 <= m_deadline t) ->
  can_add_ready fuel ts boot st i = Some st' ->
  In e (cevents st') -> In e (cevents st) \/ cj_release (cjobs st i) <= fst e.
Proof.
  induction fuel as [|f IH]; intros ts boot st i st' e Hpos H He; cbn [can_add_ready] in H; [discriminate|].
  assert (Ht : 0 <= m_period (msg_task ts i) /\ 0 <= m_deadline (msg_task ts i)).
  { unfold msg_task. destruct (nth_in_or_default i ts (CANTask 1 1 1 0 false)) as [Hin| ->]; [auto|cbn; lia]. }
  destruct (if m_critical _ then _ else _) as [om hf]. destruct om.
  - unfold can_completed, can_add_release in H. 
    cbn [notify put_job push_event cnow cbus cpending cevents cjobs cretr cpops clog] in H.
    rewrite !PeanoNat.Nat.eqb_refl in H. cbn [can_init_next cj_release] in H.
    destruct (_ <=? _).
    + injection H as <-. cbn in He. apply in_app_or in He. destruct He as [He|[<-|[]]]; [|cbn; lia].
      apply in_app_or in He. destruct He as [He|[<-|[]]]; [auto|cbn; lia].
    + apply (IH _ _ _ _ _ e Hpos) in H; [|exact He]. cbn in H. rewrite !PeanoNat.Nat.eqb_refl in H. cbn in H.
      destruct H as [H|H]; [|right; lia]. apply in_app_or in H. destruct H as [H|[<-|[]]]; [auto|cbn; lia].
  - injection H as <-. cbn in He. apply in_app_or in He. destruct He as [He|[<-|[]]]; [auto|cbn; lia].
Qed.
