(** Model of the statistics of the CAN bus simulator:
    native/src/canbus/tardiness_stats.cpp and native/include/canbus/tardiness_stats.h.
    Definitions only.
    Simplifications: counters and sequence numbers are unbounded; the two maps keyed
    by task ids (tardiness_stats.h:38-39) hold independent entries, so that the entry
    of one task id is modelled, with the calls for that id; PROB_RANDOM <= 0.5 is an
    arbitrary [coin] given with each call. *)
From Coq Require Import ZArith List Bool.
Import ListNotations.
Open Scope Z_scope.

(** is_commission (can_sim.cpp:104-122): the result and what is left of host_faults *)
Fixpoint is_commission (start stop : Z) (host_faults : list Z) : bool * list Z :=
  match host_faults with
  | [] => (false, [])
  | f :: r =>
      if stop <? f then (false, f :: r)
      else if (start <=? f) && (f <=? stop) then (true, r)
      else is_commission start stop r
  end.

(** RoundInfo (tardiness_stats.h:18-23) *)
Record round := Round { rd_seqno : Z; rd_ok : nat; rd_faulty : nat }.

(** TaskIdInfo (tardiness_stats.h:27-33) *)
Record info := Info { latest : Z; n_ok : nat; n_faulty : nat; active : list round }.

(** init_sync_stats_for_taskid and init_async_stats_for_taskid (tardiness_stats.cpp:5-29),
    also reset_sync_stats and reset_async_stats (tardiness_stats.cpp:31-55) *)
Definition init_info : info := Info 0 0 0 [].

(** a new active round, if the number is higher than the last one
    (tardiness_stats.cpp:76-80, 111-115) *)
Definition add_round (seqno : Z) (rounds : list round) : list round :=
  match rev rounds with
  | [] => [Round seqno 0 0]
  | back :: _ => if rd_seqno back <? seqno then rounds ++ [Round seqno 0 0] else rounds
  end.

(** the search for a round (tardiness_stats.cpp:82-84, 117-119, 166-168) *)
Fixpoint find_round (seqno : Z) (rounds : list round) : option round :=
  match rounds with
  | [] => None
  | r :: rest => if rd_seqno r =? seqno then Some r else find_round seqno rest
  end.

(** ok_msgs++ or faulty_msgs++ for the first such round (tardiness_stats.cpp:86-94, 121-128) *)
Fixpoint count_message (seqno : Z) (committed : bool) (rounds : list round) : list round :=
  match rounds with
  | [] => []
  | r :: rest =>
      if rd_seqno r =? seqno
      then (if committed then Round (rd_seqno r) (rd_ok r) (S (rd_faulty r)) else Round (rd_seqno r) (S (rd_ok r)) (rd_faulty r)) :: rest
      else r :: count_message seqno committed rest
  end.

(** rounds.erase (tardiness_stats.cpp:136, 182) *)
Fixpoint erase_round (seqno : Z) (rounds : list round) : list round :=
  match rounds with
  | [] => []
  | r :: rest => if rd_seqno r =? seqno then rest else r :: erase_round seqno rest
  end.

(** job->get_task().is_critical() && job->is_commission(...) (tardiness_stats.cpp:86-87, 121-122) *)
Definition commission (critical : bool) (release time : Z) (host_faults : list Z) : bool * list Z :=
  if critical then is_commission release time host_faults else (false, host_faults).

(** job_completed_sync (tardiness_stats.cpp:64-97): also what is left of the host
    faults of the job *)
Definition job_completed_sync (critical : bool) (seqno release time : Z) (host_faults : list Z) (i : info) : info * list Z :=
  if seqno <=? latest i then (i, host_faults)
  else
    let rounds := add_round seqno (active i) in
    match find_round seqno rounds with
    | None => (Info (latest i) (n_ok i) (n_faulty i) rounds, host_faults)
    | Some _ =>
        let (committed, left) := commission critical release time host_faults in
        (Info (latest i) (n_ok i) (n_faulty i) (count_message seqno committed rounds), left)
    end.

(** local_rprime (tardiness_stats.cpp:130-132) *)
Definition local_rprime (critical : bool) (rprime : nat) : nat := if critical then rprime else 1%nat.

(** job_completed_async (tardiness_stats.cpp:99-144) *)
Definition job_completed_async (critical : bool) (rprime : nat) (seqno release time : Z) (host_faults : list Z) (i : info) : info * list Z :=
  if seqno <=? latest i then (i, host_faults)
  else
    let rounds := add_round seqno (active i) in
    match find_round seqno rounds with
    | None => (Info (latest i) (n_ok i) (n_faulty i) rounds, host_faults)
    | Some _ =>
        let (committed, left) := commission critical release time host_faults in
        let rounds' := count_message seqno committed rounds in
        match find_round seqno rounds' with
        | Some r =>
            if Nat.leb (local_rprime critical rprime) (rd_ok r)
            then (Info seqno (S (n_ok i)) (n_faulty i) (erase_round seqno rounds'), left)
            else (Info (latest i) (n_ok i) (n_faulty i) rounds', left)
        | None => (Info (latest i) (n_ok i) (n_faulty i) rounds', left)
        end
    end.

(** job_deadline_expired_sync (tardiness_stats.cpp:154-191) *)
Definition job_deadline_expired_sync (coin : bool) (seqno : Z) (i : info) : info :=
  if seqno <=? latest i then i
  else
    match find_round seqno (active i) with
    | Some r =>
        let rounds := erase_round seqno (active i) in
        if Nat.ltb (rd_faulty r) (rd_ok r) then Info seqno (S (n_ok i)) (n_faulty i) rounds
        else if Nat.eqb (rd_ok r) (rd_faulty r)
        then if coin then Info seqno (n_ok i) (S (n_faulty i)) rounds else Info seqno (S (n_ok i)) (n_faulty i) rounds
        else Info seqno (n_ok i) (S (n_faulty i)) rounds
    | None => Info seqno (n_ok i) (S (n_faulty i)) (active i)
    end.

(** job_deadline_expired_async (tardiness_stats.cpp:193-206) *)
Definition job_deadline_expired_async (seqno : Z) (i : info) : info :=
  if seqno <=? latest i then i else Info seqno (n_ok i) (S (n_faulty i)) (active i).

(** the calls of the two callbacks (tardiness_stats.h:93-94) for a task id: the job
    with its host faults at the time of the call, and the coin *)
Inductive call :=
| CallCompleted (seqno release time : Z) (host_faults : list Z)
| CallExpired (seqno : Z) (coin : bool).

(** job_completed (tardiness_stats.cpp:57-62) *)
Definition stats_completed (critical : bool) (rprime : nat) (seqno release time : Z) (host_faults : list Z) (s : info * info)
  : (info * info) * list Z :=
  let (sync, left) := job_completed_sync critical seqno release time host_faults (fst s) in
  let (async, left') := job_completed_async critical rprime seqno release time left (snd s) in
  ((sync, async), left').

(** job_completed and job_deadline_expired (tardiness_stats.cpp:57-62, 146-152) *)
Definition stats_call (critical : bool) (rprime : nat) (s : info * info) (c : call) : info * info :=
  match c with
  | CallCompleted seqno release time faults => fst (stats_completed critical rprime seqno release time faults s)
  | CallExpired seqno coin => (job_deadline_expired_sync coin seqno (fst s), job_deadline_expired_async seqno (snd s))
  end.

(** all calls of a simulation (tardiness_stats.cpp:323, 374), from the initial state *)
Definition stats_run (critical : bool) (rprime : nat) (h : list call) : info * info :=
  fold_left (stats_call critical rprime) h (init_info, init_info).
