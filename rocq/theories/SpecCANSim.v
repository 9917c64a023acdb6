(** An independent description of a CAN bus with error frames: a transition system
    whose labels are what an observer sees.  It knows no queues, no events and no
    allocations. *)
From Coq Require Import ZArith List Bool.
From Verif Require Import ModelCANSim.
Import ListNotations.
Open Scope Z_scope.

(** where the current instance of a message is *)
Inductive place := Future | Waiting | Sending.

(** the bus is free from some time on, or transmits a message since some time *)
Inductive medium := FreeFrom (t : Z) | Busy (i : nat) (since : Z).

(** the time, the bus, and the number and the place of the current instance of
    each message.  Instance k of message i is released at (k - 1) * period. *)
Record busstate := Bus { clock : Z; wire : medium; inst : nat -> Z; at_ : nat -> place }.

Definition upd {A} (f : nat -> A) (i : nat) (x : A) : nat -> A := fun j => if Nat.eqb j i then x else f j.

Definition release_of (ts : list cantask) (i : nat) (k : Z) : Z := (k - 1) * m_period (msg_task ts i).

(** the times at which the wire is disturbed; those at which the host of each
    message fails; how long a host needs to boot; and whether the failures of the
    hosts stay the same during the run *)
Record env := Env { wire_faults : list Z; host_faults : nat -> list Z; boot : Z; same : Prop }.

(** the host of message i is down when the message is released at r *)
Definition down (e : env) (i : nat) (r : Z) : Prop := exists f, In f (host_faults e i) /\ r - boot e <= f <= r.

Inductive bus_step (ts : list cantask) (e : env) : busstate -> list obs -> busstate -> Prop :=
| bs_transmit : forall c c' i s k p,
    (* time passes during a transmission: not beyond its end or a release *)
    c <= c' -> c' <= s + m_cost (msg_task ts i) ->
    (forall j, (j < length ts)%nat -> p j = Future -> c' <= release_of ts j (k j)) ->
    bus_step ts e (Bus c (Busy i s) k p) [] (Bus c' (Busy i s) k p)
| bs_idle : forall c c' g k p,
    (* time passes on an idle bus only if no message waits, and not beyond a release *)
    c <= c' -> g <= c ->
    (forall j, (j < length ts)%nat -> p j <> Waiting) ->
    (forall j, (j < length ts)%nat -> p j = Future -> c' <= release_of ts j (k j)) ->
    bus_step ts e (Bus c (FreeFrom g) k p) [] (Bus c' (FreeFrom g) k p)
| bs_gap : forall c c' g k p,
    (* time passes while the bus is not yet free *)
    c <= c' -> c' <= g ->
    bus_step ts e (Bus c (FreeFrom g) k p) [] (Bus c' (FreeFrom g) k p)
| bs_release : forall c w k p i,
    (* a released message waits, unless its host is down *)
    (i < length ts)%nat -> p i = Future -> release_of ts i (k i) <= c ->
    (same e -> m_critical (msg_task ts i) = true -> ~ down e i (release_of ts i (k i))) ->
    bus_step ts e (Bus c w k p) [Released c i (k i) (release_of ts i (k i))] (Bus c w k (upd p i Waiting))
| bs_omit : forall c w k p i,
    (i < length ts)%nat -> m_critical (msg_task ts i) = true -> p i = Future -> release_of ts i (k i) <= c ->
    down e i (release_of ts i (k i)) ->
    bus_step ts e (Bus c w k p) [Omitted c i (k i) (release_of ts i (k i))] (Bus c w (upd k i (k i + 1)) p)
| bs_expire : forall c w k p i q,
    (i < length ts)%nat -> release_of ts i q + m_deadline (msg_task ts i) <= c ->
    bus_step ts e (Bus c w k p) [Expired c i q (release_of ts i q)] (Bus c w k p)
| bs_start : forall c g k p i q,
    (* arbitration: the bus is free, every released message takes part, a waiting
       message of the highest priority wins and sends its newest instance *)
    (i < length ts)%nat -> g <= c -> p i = Waiting ->
    (forall j, (j < length ts)%nat -> p j = Future -> c < release_of ts j (k j)) ->
    (forall j, (j < length ts)%nat -> p j = Waiting -> m_priority (msg_task ts i) <= m_priority (msg_task ts j)) ->
    k i <= q -> release_of ts i q <= c + 1 < release_of ts i (q + 1) ->
    bus_step ts e (Bus c (FreeFrom g) k p) [Scheduled c i q (release_of ts i q)]
      (Bus c (Busy i c) (upd k i q) (upd p i Sending))
| bs_done : forall c s i k p,
    (* an undisturbed transmission succeeds, interframe space of 3 *)
    c = s + m_cost (msg_task ts i) -> (forall f, In f (wire_faults e) -> ~ (s <= f <= c)) ->
    bus_step ts e (Bus c (Busy i s) k p) [Completed c i (k i) (release_of ts i (k i))]
      (Bus c (FreeFrom (c + 3)) (upd k i (k i + 1)) (upd p i Future))
| bs_error : forall c s i k p,
    (* a disturbed one is repeated after an error frame of 29 *)
    c = s + m_cost (msg_task ts i) -> (exists f, In f (wire_faults e) /\ s <= f <= c) ->
    bus_step ts e (Bus c (Busy i s) k p)
      [Released c i (k i) (release_of ts i (k i)); Retransmitted c i (k i) (release_of ts i (k i))]
      (Bus c (FreeFrom (c + 29)) k (upd p i Waiting)).

(** finitely many steps; the observations are newest first *)
Inductive bus_run (ts : list cantask) (e : env) : busstate -> list obs -> busstate -> Prop :=
| br_refl : forall b, bus_run ts e b [] b
| br_step : forall b l b' o b'', bus_run ts e b l b' -> bus_step ts e b' o b'' -> bus_run ts e b (o ++ l) b''.

(** all messages are released at time 0 *)
Definition bus_init : busstate := Bus 0 (FreeFrom 0) (fun _ => 1) (fun _ => Future).
