(** What the statistics of the CAN bus simulator should count, in terms of the
    calls so far, oldest first. *)
From Coq Require Import ZArith List Bool Sorting.Sorted.
From Verif Require Import ModelCANSim ModelCANStats.
Import ListNotations.
Open Scope Z_scope.

(** how many of the failures of the host fall between two times *)
Definition hits (a b : Z) (faults : list Z) : nat := length (filter (fun f => (a <=? f) && (f <=? b)) faults).

(** the message that a call reports is corrupted, given how many failures that takes *)
Definition bad (critical : bool) (need : nat) (c : call) : bool :=
  match c with
  | CallCompleted _ release time faults => critical && Nat.leb need (hits release time faults)
  | CallExpired _ _ => false
  end.

Definition is_message (q : Z) (c : call) : bool :=
  match c with CallCompleted k _ _ _ => k =? q | CallExpired _ _ => false end.

(** correct and corrupted messages of round q *)
Definition good_msgs (critical : bool) (need : nat) (q : Z) (h : list call) : nat :=
  length (filter (fun c => is_message q c && negb (bad critical need c)) h).
Definition bad_msgs (critical : bool) (need : nat) (q : Z) (h : list call) : nat :=
  length (filter (fun c => is_message q c && bad critical need c) h).

(** the deadline of round q or a later one has been reported *)
Definition expired_from (q : Z) (h : list call) : Prop := exists q' coin, In (CallExpired q' coin) h /\ q <= q'.

(** round q or a later one has got enough correct messages *)
Definition agreed_from (critical : bool) (need quorum : nat) (q : Z) (h : list call) : Prop :=
  exists q', q <= q' /\ (quorum <= good_msgs critical need q' h)%nat.

(** messages arrive in the order of their rounds; the
    failures of a host are in the order of time *)
Inductive in_order : list call -> Prop :=
| io_nil : in_order []
| io_msg : forall h q r t fs, in_order h -> StronglySorted Z.le fs ->
    (forall q' r' t' fs', In (CallCompleted q' r' t' fs') h -> q' <= q) ->
    in_order (h ++ [CallCompleted q r t fs])
| io_late : forall h q coin, in_order h -> in_order (h ++ [CallExpired q coin]).

(** what the callbacks of the simulator (oldest last) report about the messages of
    one task id: [mine] says which they are *)
Inductive feeds (mine : nat -> bool) : list obs -> list call -> Prop :=
| fe_nil : feeds mine [] []
| fe_done : forall l h t i q r fs, feeds mine l h -> mine i = true -> StronglySorted Z.le fs ->
    feeds mine (Completed t i q r :: l) (h ++ [CallCompleted q r t fs])
| fe_late : forall l h t i q r coin, feeds mine l h -> mine i = true ->
    feeds mine (Expired t i q r :: l) (h ++ [CallExpired q coin])
| fe_other : forall l h o, feeds mine l h ->
    (forall t i q r, o = Completed t i q r \/ o = Expired t i q r -> mine i = false) ->
    feeds mine (o :: l) h.

(** the same calls with hosts that do not fail *)
Definition without_failures (c : call) : call :=
  match c with CallCompleted q r t _ => CallCompleted q r t [] | CallExpired _ _ => c end.

Definition call_seqno (c : call) : Z := match c with CallCompleted q _ _ _ => q | CallExpired q _ => q end.
