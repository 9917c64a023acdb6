(** Model of the classic DPCP analysis: native/src/blocking/dpcp.cpp and the
    class ResourceLocality of native/include/sharedres_types.h.  Conventions as
    in ModelLocking.v.  Definitions only. *)
From Coq Require Import NArith List Bool.
From Verif Require Import ModelLocking.
Import ListNotations.
Open Scope N_scope.

(** ResourceLocality (sharedres_types.h:324-346): the processor assigned to a
    resource; NO_CPU (sharedres_types.h:322) is None *)
Definition locality := list (option nat).
(** ResourceLocality::assign_resource (sharedres_types.h:330-336) *)
Fixpoint assign_resource (res_id : nat) (processor : nat) (mapping : locality) : locality :=
  match res_id, mapping with
  | O, [] => [Some processor]
  | O, _ :: r => Some processor :: r
  | S k, [] => None :: assign_resource k processor []
  | S k, x :: r => x :: assign_resource k processor r
  end.
(** ResourceLocality::operator[] (sharedres_types.h:338-344) *)
Definition cpu_of (mapping : locality) (res_id : nat) : option nat := nth res_id mapping None.

(** the growing of per_cluster (dpcp.cpp:31-32) *)
Definition grow {A} (n : nat) (v : list (list A)) : list (list A) := v ++ repeat [] (S n - length v).

(** the inner loop of split_by_locality (dpcp.cpp:34-47) *)
Definition locality_step (loc : locality) (t : taskinfo) (per_cluster : list (list rbound)) (q : reqspec) : list (list rbound) :=
  match cpu_of loc (q_res q) with
  | None => per_cluster
  | Some cpu => push_at cpu (RB t q) per_cluster
  end.

(** split_by_locality (dpcp.cpp:25-49) *)
Definition split_by_locality (info : list taskinfo) (loc : locality) : list (list rbound) :=
  fold_left (fun per_cluster t => fold_left (locality_step loc t) (ti_requests t) (grow (ti_cluster t) per_cluster)) info [].

(** locality[...] == cpu (dpcp.cpp:59) *)
Definition on_cpu (loc : locality) (cpu : nat) (res_id : nat) : bool :=
  match cpu_of loc res_id with Some c => Nat.eqb c cpu | None => false end.

(** count_requests_to_cpu (dpcp.cpp:51-63) *)
Definition count_requests_to_cpu (tsk : taskinfo) (loc : locality) (cpu : nat) : N :=
  fold_left (fun count req => if on_cpu loc cpu (q_res req) then count + q_num req else count) (ti_requests tsk) 0.

(** the loop of bound_blocking_dpcp (dpcp.cpp:75-100) *)
Fixpoint dpcp_loop (tsk : taskinfo) (prio_ceiling : list N) (cont : list rbound) (max_lower_prio : N) (inter : interf) : interf :=
  match cont with
  | [] => inter
  | req :: r =>
    if negb (Nat.eqb (ti_id (rb_task req)) (ti_id tsk)) then
      if ti_prio (rb_task req) <? ti_prio tsk then
        let num := get_max_num_requests req (ti_response tsk) in
        dpcp_loop tsk prio_ceiling r max_lower_prio (Inter (i_count inter + num) (i_len inter + num * rb_len req))
      else if negb (max_lower_prio =? 0) && (nth (rb_res req) prio_ceiling UNLIMITED <=? ti_prio tsk) then
        let num := N.min (get_max_num_requests req (ti_response tsk)) max_lower_prio in
        dpcp_loop tsk prio_ceiling r (max_lower_prio - num) (Inter (i_count inter + num) (i_len inter + num * rb_len req))
      else dpcp_loop tsk prio_ceiling r max_lower_prio inter
    else dpcp_loop tsk prio_ceiling r max_lower_prio inter
  end.

(** bound_blocking_dpcp (dpcp.cpp:65-103) *)
Definition bound_blocking_dpcp (tsk : taskinfo) (cont : list rbound) (prio_ceiling : list N) (max_lower_prio : N) : interf :=
  dpcp_loop tsk prio_ceiling cont max_lower_prio inter0.

(** dpcp_remote_bound (dpcp.cpp:105-130) *)
Definition dpcp_remote_bound (tsk : taskinfo) (loc : locality) (prio_ceilings : list N) (per_cpu : list (list rbound)) : interf :=
  fold_left (fun blocking p =>
    let '(cpu, cs) := p in
    if negb (Nat.eqb cpu (ti_cluster tsk)) then
      let reqs := count_requests_to_cpu tsk loc cpu in
      if 0 <? reqs then iadd blocking (bound_blocking_dpcp tsk cs prio_ceilings reqs) else blocking
    else blocking) (combine (seq 0 (length per_cpu)) per_cpu) inter0.

(** dpcp_local_bound (dpcp.cpp:133-153) *)
Definition dpcp_local_bound (tsk : taskinfo) (local : list rbound) : interf :=
  fold_left (fun blocking req =>
    if negb (Nat.eqb (ti_id (rb_task req)) (ti_id tsk)) then
      let num := get_max_num_requests req (ti_response tsk) in
      Inter (i_count blocking + num) (i_len blocking + num * rb_len req)
    else blocking) local inter0.

(** dpcp_bounds (dpcp.cpp:156-183) *)
Definition dpcp_bounds (info : list taskinfo) (loc : locality) : list bounds :=
  let per_cpu := map sort_by_request_length (split_by_locality info loc) in
  let prio_ceilings := get_priority_ceilings info in
  map (fun tsk =>
    let remote := dpcp_remote_bound tsk loc prio_ceilings per_cpu in
    let local := dpcp_local_bound tsk (nth (ti_cluster tsk) per_cpu []) in
    BB (iadd remote local) inter0 inter0 remote local) info.
