(** Model of schedcat/sched/run.py.  Rates are exact rationals (the packing uses
    floats for the sums of the bins); the id labels of servers are not modelled;
    a set of deadlines is a list, of which only the membership matters.
    Definitions only. *)
From Coq Require Import ZArith QArith Qround List Bool.
From Verif Require Import Base ModelTasks ModelBinpack.
Import ListNotations.
Open Scope Q_scope.

(** Server (run.py:7-20) *)
Inductive server := Server (rate : Q) (deadlines : list Z) (clients : list server) (created_from : option server).

(** self.rate, self.deadlines, self.clients, self.created_from (run.py:11-20) *)
Definition rate (s : server) : Q := match s with Server r _ _ _ => r end.
(** run.py:14 *)
Definition deadlines (s : server) : list Z := match s with Server _ d _ _ => d end.
(** run.py:17 *)
Definition clients (s : server) : list server := match s with Server _ _ c _ => c end.
(** run.py:19 *)
Definition created_from (s : server) : option server := match s with Server _ _ _ p => p end.

(** total_rate (run.py:75-76), also the sum in aggregate (run.py:23) *)
Definition total_rate (servers : list server) : Q := qsum (map rate servers).

(** Server.aggregate (run.py:21-28) *)
Definition aggregate (servers : list server) : server :=
  Server (total_rate servers) (concat (map deadlines servers)) servers None.

(** Server.dual (run.py:30-35) *)
Definition dual (s : server) : server := Server (1 - rate s) (deadlines s) (clients s) (Some s).

(** is_unit_server (run.py:37-38) *)
Definition is_unit (s : server) : bool := Qeq_bool (rate s) 1.

(** find_packing (run.py:53-54): best_fit_decreasing with bins on demand and
    capacity 1; misfit is never called then *)
Definition find_packing (servers : list server) : list (list server) :=
  match decreasing rate (best_fit rate 1 (fun _ => false)) servers 0 with Sets s _ => s | _ => [] end.

(** pack (run.py:59-64) *)
Definition pack (packing : list (list server)) : list server := map aggregate packing.

(** reduction_step (run.py:66-69) *)
Definition reduction_step (servers : list server) : list server := map dual (pack (find_packing servers)).

(** all_unit_servers (run.py:78-79) *)
Definition all_unit_servers (servers : list server) : bool := forallb is_unit servers.

(** ensure_integer_rate (run.py:81-87) *)
Definition ensure_integer_rate (servers : list server) : list server :=
  let r := total_rate servers in
  let next_int := inject_Z (Qceiling r) in
  if negb (Qeq_bool next_int r) then servers ++ [Server (next_int - r) [] [] None] else servers.

(** the while loop of reduce (run.py:91-102); [levels] in order, [last] is
    levels[-1]; None if the fuel is used up *)
Fixpoint reduce_loop (fuel : nat) (levels : list (list server)) (last : list server) : option (list server * list (list server)) :=
  match fuel with
  | O => None
  | S f =>
    let packed := pack (find_packing last) in
    if all_unit_servers packed then Some (packed, levels)
    else let d := map dual packed in reduce_loop f (levels ++ [d]) d
  end.

(** reduce (run.py:89-102) *)
Definition reduce (fuel : nat) (servers : list server) : option (list server * list (list server)) :=
  let l0 := ensure_integer_rate servers in reduce_loop fuel [l0] l0.

(** max_number_of_preemptions_per_job_release (run.py:104-106) *)
Definition max_preemptions (levels : list (list server)) : Z := Qceiling (inject_Z (Z.of_nat (length levels)) / 2).
