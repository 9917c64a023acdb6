(** Model of the classic analysis of the multiprocessor priority ceiling
    protocol: native/src/blocking/mpcp.cpp.  Conventions as in ModelLocking.v.
    Definitions only. *)
From Coq Require Import NArith List Bool.
From Verif Require Import ModelLocking ModelFMLPPlus.
Import ListNotations.
Open Scope N_scope.

(** determine_mpcp_ceilings, one resource (mpcp.cpp:17-29) *)
Definition mpcp_ceiling (cluster : nat) (cs : list rbound) : N :=
  fold_left (fun ceiling req => if negb (Nat.eqb (ti_cluster (rb_task req)) cluster) then N.min ceiling (ti_prio (rb_task req)) else ceiling) cs UNLIMITED.
(** determine_mpcp_ceilings (mpcp.cpp:9-32) *)
Definition determine_mpcp_ceilings (resources : list (list rbound)) (cluster : nat) : list N := map (mpcp_ceiling cluster) resources.
(** get_mpcp_ceilings (mpcp.cpp:34-50) *)
Definition get_mpcp_ceilings (info : list taskinfo) : list (list N) :=
  map (determine_mpcp_ceilings (split_by_resource info)) (seq 0 (length (split_by_cluster info 0))).

(** ceilings[cluster][res_id] (mpcp.cpp:63, 83) *)
Definition ceiling_of (ceilings : list (list N)) (cluster res : nat) : N := nth res (nth cluster ceilings []) UNLIMITED.

(** get_max_gcs_length (mpcp.cpp:55-70) *)
Definition get_max_gcs_length (tsk : taskinfo) (ceilings : list (list N)) (preempted_ceiling : N) : N :=
  fold_left (fun gcs_length q => if ceiling_of ceilings (ti_cluster tsk) (q_res q) <=? preempted_ceiling then N.max gcs_length (q_len q) else gcs_length) (ti_requests tsk) 0.

(** determine_gcs_response_times, one request (mpcp.cpp:81-96) *)
Definition gcs_response_time (tsk : taskinfo) (cluster : list taskinfo) (ceilings : list (list N)) (q : reqspec) : N :=
  let prio := ceiling_of ceilings (ti_cluster tsk) (q_res q) in
  fold_left (fun resp t => if negb (Nat.eqb (ti_id t) (ti_id tsk)) then resp + get_max_gcs_length t ceilings prio else resp) cluster (q_len q).
(** determine_gcs_response_times, one task (mpcp.cpp:72-98) *)
Definition task_response_times (cluster : list taskinfo) (ceilings : list (list N)) (tsk : taskinfo) : list N :=
  map (gcs_response_time tsk cluster ceilings) (ti_requests tsk).
(** determine_gcs_response_times, one cluster (mpcp.cpp:100-111) *)
Definition cluster_response_times (ceilings : list (list N)) (cluster : list taskinfo) : list (list N) := map (task_response_times cluster ceilings) cluster.
(** determine_gcs_response_times (mpcp.cpp:113-123) *)
Definition determine_gcs_response_times (clusters : list (list taskinfo)) (ceilings : list (list N)) : list (list (list N)) :=
  map (cluster_response_times ceilings) clusters.

(** the loop of response_time_for over requests[i] and resp[i] (mpcp.cpp:134-153) *)
Fixpoint response_time_loop (res_id : nat) (interval : N) (tsk : taskinfo) (requests : list (reqspec * N)) (multiple : bool) : N :=
  match requests with
  | [] => 0
  | (q, resp) :: r =>
      if Nat.eqb (q_res q) res_id then
        if multiple then (divide_with_ceil interval (ti_period tsk) + 1) * resp * q_num q else resp
      else response_time_loop res_id interval tsk r multiple
  end.
(** response_time_for (mpcp.cpp:125-154) *)
Definition response_time_for (res_id : nat) (interval : N) (tsk : taskinfo) (resp : list N) (multiple : bool) : N :=
  response_time_loop res_id interval tsk (combine (ti_requests tsk) resp) multiple.

(** mpcp_remote_blocking, one cluster (mpcp.cpp:156-187): blocking and max_lower *)
Definition mpcp_cluster_blocking (res_id : nat) (interval : N) (tsk : taskinfo) (st : N * N) (cluster : list (taskinfo * list N)) : N * N :=
  fold_left (fun st tr => let '(t, resp) := tr in
    if negb (Nat.eqb (ti_id t) (ti_id tsk)) then
      if ti_prio t <? ti_prio tsk then (fst st + response_time_for res_id interval t resp true, snd st)
      else (fst st, N.max (snd st) (response_time_for res_id interval t resp false))
    else st) cluster st.
(** mpcp_remote_blocking, all clusters (mpcp.cpp:189-214) with max_lower added (mpcp.cpp:233-239) *)
Definition mpcp_request_step (res_id : nat) (tsk : taskinfo) (clusters : list (list (taskinfo * list N))) (interval : N) : N :=
  let '(blocking, max_lower) := fold_left (mpcp_cluster_blocking res_id interval tsk) clusters (0, 0) in blocking + max_lower.

(** the loop of mpcp_remote_blocking for one resource (mpcp.cpp:225-244), with fuel *)
Fixpoint mpcp_loop (fuel : nat) (step : N -> N) (limit interval : N) : option N :=
  match fuel with
  | O => None
  | S n =>
      if limit <? interval then Some UNLIMITED
      else let blocking := step interval in if interval =? blocking then Some blocking else mpcp_loop n step limit blocking
  end.
(** mpcp_remote_blocking for one resource (mpcp.cpp:216-245) *)
Definition mpcp_request_blocking (res_id : nat) (tsk : taskinfo) (clusters : list (list (taskinfo * list N))) : option N :=
  let limit := N.max (ti_response tsk) (ti_period tsk) in
  mpcp_loop (N.to_nat limit + 4) (mpcp_request_step res_id tsk clusters) limit 1.

(** unsigned int of 32 bits: the variable b and the product b * num (mpcp.cpp:259-264),
    the variable blocking and the product with num_arrivals (mpcp.cpp:278-290) *)
Definition to_uint (n : N) : N := n mod 4294967296.
(** the loop of mpcp_remote_blocking over the requests (mpcp.cpp:257-268) *)
Fixpoint mpcp_remote_loop (tsk : taskinfo) (clusters : list (list (taskinfo * list N))) (requests : list reqspec) (blocking : N) : option N :=
  match requests with
  | [] => Some blocking
  | q :: r =>
      match mpcp_request_blocking (q_res q) tsk clusters with
      | None => None
      | Some b0 => let b := to_uint b0 in if b =? UNLIMITED then Some b else mpcp_remote_loop tsk clusters r (blocking + to_uint (b * q_num q))
      end
  end.
(** mpcp_remote_blocking (mpcp.cpp:247-271) *)
Definition mpcp_remote_blocking (tsk : taskinfo) (clusters : list (list (taskinfo * list N))) : option N :=
  mpcp_remote_loop tsk clusters (ti_requests tsk) 0.

(** TaskInfo::get_max_request_length (sharedres_types.h:154-160) *)
Definition get_max_request_length (tsk : taskinfo) : N := fold_left (fun len q => N.max len (q_len q)) (ti_requests tsk) 0.
(** mpcp_arrival_blocking (mpcp.cpp:273-291) *)
Definition mpcp_arrival_blocking (tsk : taskinfo) (cluster : list taskinfo) (virtual_spinning : bool) : N :=
  let blocking := fold_left (fun b t => if negb (Nat.eqb (ti_id t) (ti_id tsk)) && (ti_prio tsk <=? ti_prio t) then to_uint (b + get_max_request_length t) else b) cluster 0 in
  if virtual_spinning then blocking else to_uint (blocking * get_num_arrivals tsk).

(** the bounds of a task (mpcp.cpp:316-339); no value if a loop does not end *)
Definition mpcp_task_bounds (tsk : taskinfo) (clusters : list (list (taskinfo * list N))) (cluster : list taskinfo) (virtual_spinning : bool) : option bounds :=
  match mpcp_remote_blocking tsk clusters with
  | None => None
  | Some remote => let local := mpcp_arrival_blocking tsk cluster virtual_spinning in
      Some (BB (Inter 0 (remote + local)) inter0 inter0 (Inter 0 remote) (Inter 0 local))
  end.
(** mpcp_bounds (mpcp.cpp:293-342): clusters[i] and responses[i] are combined *)
Definition mpcp_bounds (info : list taskinfo) (virtual_spinning : bool) : list (option bounds) :=
  let clusters := split_by_cluster info 0 in
  let responses := determine_gcs_response_times clusters (get_mpcp_ceilings info) in
  let both := map (fun cr => combine (fst cr) (snd cr)) (combine clusters responses) in
  map (fun tsk => mpcp_task_bounds tsk both (nth (ti_cluster tsk) clusters []) virtual_spinning) info.
