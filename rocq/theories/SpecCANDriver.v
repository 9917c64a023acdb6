(** What the driver of the CAN simulations should print: the mean of the failure
    ratios of separate, new simulations. *)
From Coq Require Import ZArith QArith List Bool.
From Verif Require Import Base ModelCANSim ModelCANStats ModelCANDriver SpecCANStats.
Import ListNotations.

(** a new simulator, with the faults of a configuration at the critical tasks *)
Definition simulates (fuel : nat) (pick : nat -> nat) (ts : list cantask) (boot stop : Z)
    (callback : list obs -> list Z -> list Z) (c : config) (st : canstate) : Prop :=
  can_simulation fuel pick ts boot callback (fun _ => false)
    (fun i => if m_critical (msg_task ts i) then cf_hosts c i else []) (cf_wire c) stop = Some st.

(** no host of a critical task fails and no frame is disturbed *)
Definition quiet (ts : list cantask) (c : config) : Prop :=
  cf_wire c = [] /\ forall i, (i < length ts)%nat -> m_critical (msg_task ts i) = true -> cf_hosts c i = [].

(** faulty rounds among all rounds, the mean of such ratios, and equality of results;
    None is "not a number" *)
Definition is_ratio (ok_faulty : nat * nat) (r : option Q) : Prop :=
  match r with
  | Some q => (q * inject_Z (Z.of_nat (fst ok_faulty + snd ok_faulty)) == inject_Z (Z.of_nat (snd ok_faulty)))%Q /\ (0 < fst ok_faulty + snd ok_faulty)%nat
  | None => (fst ok_faulty + snd ok_faulty = 0)%nat
  end.

Definition is_mean (rs : list (option Q)) (m : option Q) : Prop :=
  match m with
  | Some q => rs <> [] /\ exists qs, rs = map Some qs /\ (q * inject_Z (Z.of_nat (length qs)) == fold_right Qplus 0 qs)%Q
  | None => rs = [] \/ In None rs
  end.

(** [counts] are the synchronous or the asynchronous counters of C77 for the messages
    [mine] after the callbacks [log], when no host has failed *)
Definition reads_stats (mine : nat -> bool) (critical : bool) (rprime : nat) (sync : bool) (log : list obs) (counts : nat * nat) : Prop :=
  exists h, feeds mine log h /\ (forall q r t fs, In (CallCompleted q r t fs) h -> fs = []) /\
    let s := stats_run critical rprime h in
    let i := if sync then fst s else snd s in
    counts = (n_ok i, n_faulty i).
