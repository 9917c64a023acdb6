(** Specification for the CAN analysis: the response-time recurrence and a
    non-preemptive fixed-priority bus with transmission faults.  The model file is
    used only for the types of messages and bus parameters and for the length of a
    frame. *)
From Coq Require Import ZArith List Bool.
From Verif Require Import Base ModelCAN.
Import ListNotations.
Open Scope Z_scope.

Definition wf_bus (b : canbus) : Prop := 1 <= b_tau b /\ 0 <= b_ifs b /\ 0 <= b_err b.
Definition wf_msg (m : cmsg) : Prop := 0 <= cm_length m /\ 1 <= cm_period m /\ 0 <= cm_jitter m.

(** the maximum of a list of non-negative numbers *)
Definition zmax (l : list Z) : Z := fold_right Z.max 0 l.

Definition higher (ms : list cmsg) (m : cmsg) : list cmsg := filter (fun k => cm_id k <? cm_id m) ms.
Definition higher_or_equal (ms : list cmsg) (m : cmsg) : list cmsg := filter (fun k => cm_id k <=? cm_id m) ms.
Definition lower (ms : list cmsg) (m : cmsg) : list cmsg := filter (fun k => cm_id m <? cm_id k) ms.

(** w = B + C + I(w) + E: the right-hand side of the recurrence *)
Definition recurrence (b : canbus) (ms : list cmsg) (m : cmsg) (faults w : Z) : Z :=
  zmax (map (transfer_delay b) (lower ms m)) + b_ifs b + transfer_delay b m
  + zsum (map (fun k => cdiv (w - transfer_delay b m + cm_jitter k + b_tau b) (cm_period k) * (transfer_delay b k + b_ifs b)) (higher ms m))
  + faults * (zmax (map (transfer_delay b) (higher_or_equal ms m)) + b_err b).

(** ** The bus *)

(** One use of the bus: an attempt to transmit instance [ev_inst] of message
    [ev_msg] (a position in the message list), from [ev_start] until [ev_end];
    [ev_ok]: it is not hit by a fault. *)
Record event := Event { ev_msg : nat; ev_inst : nat; ev_start : Z; ev_end : Z; ev_ok : bool }.

(** [arrival i k], [queued i k]: when instance [k] of message [i] arrives and when it is
    queued for transmission, at most the jitter later; the instances of a message
    are queued in order. *)
Definition sporadic_msgs (ms : list cmsg) (arrival queued : nat -> nat -> Z) : Prop :=
  forall i m, nth_error ms i = Some m -> forall k,
    arrival i k + cm_period m <= arrival i (S k) /\ arrival i k <= queued i k <= arrival i k + cm_jitter m /\ queued i k <= queued i (S k).

(** Instance (i, k) is transmitted by time [t]. *)
Definition transmitted (evs : list event) (i k : nat) (t : Z) : Prop :=
  exists e, In e evs /\ ev_msg e = i /\ ev_inst e = k /\ ev_ok e = true /\ ev_end e <= t.

Definition waiting (queued : nat -> nat -> Z) (evs : list event) (i k : nat) (t : Z) : Prop :=
  queued i k <= t /\ ~ transmitted evs i k t.

(** when the bus is available again: after the inter-frame space, or after the error frame *)
Definition ev_free (b : canbus) (e : event) : Z := ev_end e + if ev_ok e then b_ifs b else b_err b.

(** The bus is used according to the priorities, one frame at a time, and it does
    not idle before time [horizon] while a message is waiting. *)
Record can_execution (b : canbus) (ms : list cmsg) (queued : nat -> nat -> Z) (horizon : Z) (evs : list event) : Prop := {
  can_msg : forall e, In e evs -> (ev_msg e < length ms)%nat;
  can_len : forall e m, In e evs -> nth_error ms (ev_msg e) = Some m ->
    ev_start e <= ev_end e <= ev_start e + transfer_delay b m;
  can_once : ForallOrdPairs (fun e f => ev_msg e = ev_msg f -> ev_inst e = ev_inst f -> ev_ok e = true -> ev_ok f = true -> False) evs;
  can_exclusive : ForallOrdPairs (fun e f => ev_free b e <= ev_start f \/ ev_free b f <= ev_start e) evs;
  (** the transmitted instance is waiting, no waiting message has a higher priority, and
      no earlier instance of the same message is waiting *)
  can_priority : forall e m, In e evs -> nth_error ms (ev_msg e) = Some m ->
    waiting queued evs (ev_msg e) (ev_inst e) (ev_start e) /\
    forall i k m', nth_error ms i = Some m' -> waiting queued evs i k (ev_start e) -> cm_id m <= cm_id m' /\ (i = ev_msg e -> (ev_inst e <= k)%nat);
  can_busy : forall i k t, (i < length ms)%nat -> waiting queued evs i k t -> t < horizon ->
    exists e, In e evs /\ ev_start e <= t < ev_free b e }.

(** At most [n] faults hit attempts that use the bus in [lo, hi). *)
Definition faults_in (b : canbus) (evs : list event) (lo hi : Z) : list event :=
  filter (fun e => negb (ev_ok e) && (ev_start e <? hi) && (lo <? ev_free b e)) evs.

(** Instance (i, k) is the first instance of its message in a busy period that starts
    at [t0]: everything of the same or a higher priority that was queued before
    is transmitted, and from then on some such message is waiting until (i, k)
    is queued. *)
Definition first_in_busy_period (ms : list cmsg) (queued : nat -> nat -> Z) (evs : list event) (i k : nat) (m : cmsg) (t0 : Z) : Prop :=
  t0 <= queued i k /\
  (forall i' k' m', nth_error ms i' = Some m' -> cm_id m' <= cm_id m -> queued i' k' < t0 -> transmitted evs i' k' t0) /\
  (forall t, t0 <= t < queued i k -> exists i' k' m', nth_error ms i' = Some m' /\ cm_id m' <= cm_id m /\ waiting queued evs i' k' t) /\
  (forall k', (k' < k)%nat -> queued i k' < t0).

(** ** Priority assignments *)

(** the message set with the priorities given by [g], a function of the message name *)
Definition prio (g : nat -> Z) (m : cmsg) : cmsg := CMsg (cm_name m) (g (cm_name m)) (cm_length m) (cm_period m) (cm_deadline m) (cm_jitter m).
Definition with_ids (g : nat -> Z) (ms : list cmsg) : list cmsg := map (prio g) ms.

(** Message [m] tolerates [faults] retransmissions under the priorities [g]: the
    recurrence has a solution that meets the deadline. *)
Definition tolerates (b : canbus) (ms : list cmsg) (g : nat -> Z) (m : cmsg) (faults : Z) : Prop :=
  exists w, transfer_delay b m <= w /\ recurrence b (with_ids g ms) (prio g m) faults w <= w /\ w + cm_jitter m <= cm_deadline m.

(** no two messages have the same priority *)
Definition distinct_ids (g : nat -> Z) (ms : list cmsg) : Prop := NoDup (map (fun m => g (cm_name m)) ms).
