(** Model of schedcat/model/resources.py (nested critical sections, group locks)
    and schedcat/locking/partition.py (connected components).  Python sets that
    are shared by reference are cells of a heap; dictionaries are association
    lists, the latest binding first.  Definitions only. *)
From Coq Require Import ZArith List Bool Arith.
Import ListNotations.
Open Scope Z_scope.

(** ResourceRequirement (resources.py:4-12) *)
Record requirement := Reqt { rr_id : nat; rr_writes : Z; rr_reads : Z; rr_wlen : Z; rr_rlen : Z; rr_prio : Z }.

(** max_requests, max_length (resources.py:14-22) *)
Definition max_requests (r : requirement) : Z := rr_writes r + rr_reads r.
(** resources.py:19-22 *)
Definition max_length (r : requirement) : Z := Z.max (rr_wlen r) (rr_rlen r).

(** add_request (resources.py:24-32) *)
Definition add_request (r : requirement) (length : Z) (read : bool) (priority : Z) : requirement :=
  if read
  then Reqt (rr_id r) (rr_writes r) (rr_reads r + 1) (rr_wlen r) (Z.max (rr_rlen r) length) (Z.min (rr_prio r) priority)
  else Reqt (rr_id r) (rr_writes r + 1) (rr_reads r) (Z.max (rr_wlen r) length) (rr_rlen r) (Z.min (rr_prio r) priority).

(** convert_reads_to_writes (resources.py:41-45) *)
Definition convert_reads_to_writes (r : requirement) : requirement :=
  Reqt (rr_id r) (max_requests r) 0 (max_length r) 0 (rr_prio r).

(** ResourceRequirements: a dictionary with a default entry (resources.py:48-51) *)
Definition requirements := list (nat * requirement).
(** the entry or a fresh one (resources.py:49-51) *)
Definition get_req (m : requirements) (k : nat) : requirement :=
  match find (fun p => Nat.eqb (fst p) k) m with Some p => snd p | None => Reqt k 0 0 0 0 0 end.
(** the effect of a mutating method on the entry of a key (resources.py:136) *)
Fixpoint set_req (m : requirements) (k : nat) (r : requirement) : requirements :=
  match m with [] => [(k, r)] | p :: t => if Nat.eqb (fst p) k then (k, r) :: t else p :: set_req t k r end.

(** CriticalSection (resources.py:61-68); the outer pointer is the position in the tree *)
Inductive csec := CS (res : nat) (len : Z) (nested : list csec).

(** res_id, length, nested (resources.py:62-67) *)
Definition cs_res (c : csec) : nat := match c with CS r _ _ => r end.
(** resources.py:66 *)
Definition cs_len (c : csec) : Z := match c with CS _ l _ => l end.
(** resources.py:67 *)
Definition cs_nested (c : csec) : list csec := match c with CS _ _ n => n end.

(** total_length (resources.py:75-77) *)
Fixpoint cs_total (c : csec) : Z := match c with CS _ l n => fold_left (fun s x => s + x) (map cs_total n) l end.

(** __iter__ (resources.py:102-103) *)
Fixpoint cs_iter (c : csec) : list csec := match c with CS _ _ n => c :: concat (map cs_iter n) end.

(** OutermostCriticalSections.all (resources.py:122-124) *)
Definition cs_all (f : list csec) : list csec := concat (map cs_iter f).

(** is_nesting_well_ordered (resources.py:94-100) *)
Definition nesting_well_ordered (c : csec) : bool := forallb (fun x => negb (Nat.leb (cs_res x) (cs_res c))) (cs_nested c).

(** all_nesting_well_ordered (resources.py:118-120) *)
Definition all_nesting_well_ordered (f : list csec) : bool := forallb nesting_well_ordered (cs_all f).

(** is_reentrant: [outers] are the resources held, innermost first (resources.py:85-92) *)
Fixpoint is_reentrant (res : nat) (outers : list nat) : bool :=
  match outers with [] => false | o :: r => if Nat.eqb o res then true else is_reentrant res r end.

(** add_outermost (resources.py:108-111) *)
Definition add_outermost (f : list csec) (res : nat) (len : Z) : list csec := f ++ [CS res len []].

(** add_nested below the section at a path of child positions (resources.py:79-83, 113-116).
    None is the failed assertion or a path that does not exist. *)
Fixpoint add_nested_at (outers : list nat) (c : csec) (path : list nat) (res : nat) (len : Z) : option csec :=
  match c, path with
  | CS r l n, [] => if is_reentrant res (r :: outers) then None else Some (CS r l (n ++ [CS res len []]))
  | CS r l n, i :: p =>
    match nth_error n i with
    | None => None
    | Some x => match add_nested_at (r :: outers) x p res len with
                | None => None
                | Some x' => Some (CS r l (firstn i n ++ x' :: skipn (S i) n))
                end
    end
  end.
(** resources.py:113-116 *)
Definition add_nested (f : list csec) (i : nat) (path : list nat) (res : nat) (len : Z) : option (list csec) :=
  match nth_error f i with
  | None => None
  | Some c => match add_nested_at [] c path res len with
              | None => None
              | Some c' => Some (firstn i f ++ c' :: skipn (S i) f)
              end
  end.

(** all_flat (resources.py:140-146): (resource, length, index of the outer section or -1) *)
Fixpoint flat_from (outer i : Z) (c : csec) : list (nat * Z * Z) :=
  match c with CS r l n => (r, l, outer) :: (fix go (k : Z) (ns : list csec) : list (nat * Z * Z) :=
     match ns with [] => [] | x :: t => flat_from i k x ++ go (k + Z.of_nat (length (cs_iter x))) t end) (i + 1) n end.
(** resources.py:140-146 *)
Fixpoint all_flat_from (k : Z) (f : list csec) : list (nat * Z * Z) :=
  match f with [] => [] | x :: t => flat_from (-1) k x ++ all_flat_from (k + Z.of_nat (length (cs_iter x))) t end.
(** resources.py:140-146 *)
Definition all_flat (f : list csec) : list (nat * Z * Z) := all_flat_from 0 f.

(** the sections with the resource of their outer section, in the order of all() (resources.py:122-124, 158-165) *)
Fixpoint with_outer (outer : option nat) (c : csec) : list (nat * option nat) :=
  match c with CS r _ n => (r, outer) :: concat (map (with_outer (Some r)) n) end.

(** groups: a dictionary of references to sets (resources.py:157) *)
Record gstate := GS { g_heap : list (list nat); g_env : list (nat * nat) }.
(** dictionary lookup (resources.py:160, 167-168) *)
Definition glookup (env : list (nat * nat)) (r : nat) : option nat := option_map snd (find (fun p => Nat.eqb (fst p) r) env).
(** replacing a cell: in-place set update (resources.py:171) *)
Fixpoint set_cell (h : list (list nat)) (k : nat) (v : list nat) : list (list nat) :=
  match h, k with [], _ => [] | _ :: t, O => v :: t | x :: t, S k => x :: set_cell t k v end.
(** set union (resources.py:171) *)
Definition set_union (a b : list nat) : list nat := a ++ filter (fun x => negb (existsb (Nat.eqb x) a)) b.
(** set equality (resources.py:169) *)
Definition set_eqb (a b : list nat) : bool := forallb (fun x => existsb (Nat.eqb x) b) a && forallb (fun x => existsb (Nat.eqb x) a) b.

(** one iteration of identify_group_locks (resources.py:159-173); None is a KeyError *)
Definition group_step (st : gstate) (ev : nat * option nat) : option gstate :=
  let '(r, outer) := ev in
  let st := match glookup (g_env st) r with
            | None => GS (g_heap st ++ [[r]]) ((r, length (g_heap st)) :: g_env st)
            | Some _ => st end in
  match outer with
  | None => Some st
  | Some o =>
    match glookup (g_env st) o, glookup (g_env st) r with
    | Some p1, Some p2 =>
      let g1 := nth p1 (g_heap st) [] in let g2 := nth p2 (g_heap st) [] in
      if set_eqb g1 g2 then Some st
      else Some (GS (set_cell (g_heap st) p1 (set_union g1 g2)) (fold_left (fun env x => (x, p1) :: env) g2 (g_env st)))
    | _, _ => None
    end
  end.
(** identify_group_locks (resources.py:156-174): [tasks] are the critical sections of each task *)
Fixpoint group_loop (st : gstate) (evs : list (nat * option nat)) : option gstate :=
  match evs with [] => Some st | e :: r => match group_step st e with None => None | Some st => group_loop st r end end.
(** resources.py:156-174 *)
Definition identify_group_locks (tasks : list (list csec)) : option gstate :=
  group_loop (GS [] []) (concat (map (fun f => concat (map (with_outer None) f)) tasks)).

(** min(group) (resources.py:135); None on the empty set *)
Definition set_min (l : list nat) : option nat := match l with [] => None | x :: r => Some (fold_left Nat.min r x) end.

(** group id of a resource (resources.py:134-135) *)
Definition group_id (st : gstate) (r : nat) : option nat :=
  match glookup (g_env st) r with None => None | Some p => set_min (nth p (g_heap st) []) end.

(** get_group_lock_model (resources.py:130-138); None is a KeyError *)
Fixpoint group_model (st : gstate) (f : list csec) (m : requirements) : option requirements :=
  match f with
  | [] => Some m
  | c :: r => match group_id st (cs_res c) with
              | None => None
              | Some g => group_model st r (set_req m g (add_request (get_req m g) (cs_total c) false 0))
              end
  end.

(** convert_to_group_locks (resources.py:176-179) *)
Definition convert_to_group_locks (tasks : list (list csec)) : option (list (option requirements)) :=
  match identify_group_locks tasks with
  | None => None
  | Some st => Some (map (fun f => group_model st f []) tasks)
  end.

(** ** locking/partition.py *)

(** by_res and the heap of task sets (partition.py:7) *)
Record pstate := PS { p_heap : list (list nat); p_res : list (nat * nat); p_task : list (nat * nat) }.

(** by_res[res_id]: a defaultdict creates an empty set (partition.py:7, 14, 17-18) *)
Definition touch (st : pstate) (r : nat) : pstate * nat :=
  match glookup (p_res st) r with
  | Some p => (st, p)
  | None => (PS (p_heap st ++ [[]]) ((r, length (p_heap st)) :: p_res st) (p_task st), length (p_heap st))
  end.

(** the merge loop (partition.py:16-18) *)
Fixpoint merge_loop (st : pstate) (first : nat) (others : list nat) : pstate :=
  match others with
  | [] => st
  | o :: r =>
    let '(st, p) := touch st first in
    let '(st, q) := touch st o in
    let heap := set_cell (p_heap st) p (set_union (nth p (p_heap st) []) (nth q (p_heap st) [])) in
    merge_loop (PS heap ((o, p) :: p_res st) (p_task st)) first r
  end.

(** one task (partition.py:9-21): [accessed] are its resources in dictionary order *)
Definition comp_step (st : pstate) (ta : nat * list nat) : pstate :=
  let '(t, accessed) := ta in
  match accessed with
  | [] => PS (p_heap st ++ [[t]]) (p_res st) ((t, length (p_heap st)) :: p_task st)
  | r :: others =>
    let '(st, p) := touch st r in
    merge_loop (PS (set_cell (p_heap st) p (set_union (nth p (p_heap st) []) [t])) (p_res st) (p_task st)) r others
  end.

(** the inner loop with its break (partition.py:24-27) *)
Fixpoint assign_set (by_task : list (nat * nat)) (p : nat) (members : list nat) : list (nat * nat) :=
  match members with
  | [] => by_task
  | t :: r => match glookup by_task t with Some _ => by_task | None => assign_set ((t, p) :: by_task) p r end
  end.

(** the values of by_res, one per key (partition.py:23); [order] is the dictionary order of the keys *)
Definition find_connected_components (iter : list nat -> list nat) (order : list nat) (tasks : list (nat * list nat)) : pstate :=
  let st := fold_left comp_step tasks (PS [] [] []) in
  let values := concat (map (fun k => match glookup (p_res st) k with Some p => [p] | None => [] end) order) in
  PS (p_heap st) (p_res st) (fold_left (fun bt p => assign_set bt p (iter (nth p (p_heap st) []))) values (p_task st)).

(** find_independent_tasksubsets (partition.py:31-41); [torder] is the dictionary order of by_task *)
Fixpoint subsets_loop (st : pstate) (torder : list nat) (done : list nat) : list (list nat) :=
  match torder with
  | [] => []
  | t :: r =>
    match glookup (p_task st) t with
    | None => subsets_loop st r done
    | Some p => if existsb (Nat.eqb t) done then subsets_loop st r done
                else nth p (p_heap st) [] :: subsets_loop st r (done ++ nth p (p_heap st) [])
    end
  end.
(** partition.py:31-41 *)
Definition find_independent_tasksubsets (iter : list nat -> list nat) (order torder : list nat) (tasks : list (nat * list nat)) : list (list nat) :=
  subsets_loop (find_connected_components iter order tasks) torder [].
