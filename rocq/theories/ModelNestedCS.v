(** Model of the nested critical sections of the native code:
    native/include/nested_cs.h, native/src/blocking/nested_cs.cpp, and
    get_cpp_nested_cs_model of schedcat/locking/bounds.py.  Resource ids are
    naturals, lengths are integers; the indices are those of the code.  An index
    out of range, which is undefined behaviour in the code, is the value None.
    Definitions only. *)
From Coq Require Import ZArith List Bool Arith.
From Verif Require Import ModelResources.
Import ListNotations.
Local Open Scope nat_scope.

(** CriticalSection (nested_cs.h:16-26) *)
Record ncs := NCS { n_res : nat; n_len : Z; n_outer : Z }.

(** is_nested (nested_cs.h:31-34) *)
Definition is_nested (c : ncs) : bool := negb (Z.eqb (n_outer c) (-1)).
(** is_outermost (nested_cs.h:36-39) *)
Definition is_outermost (c : ncs) : bool := Z.eqb (n_outer c) (-1).

(** CriticalSectionsOfTask::cs (nested_cs.h:65-67) *)
Definition ncs_task := list ncs.

(** cs[i] for an int index (nested_cs.cpp:52, 73, 88) *)
Definition cs_at (t : ncs_task) (i : Z) : option ncs := if Z.ltb i 0 then None else nth_error t (Z.to_nat i).

(** CriticalSectionsOfTask::add; None is the failed assertion; a negative index
    is a large unsigned long (nested_cs.h:81-87) *)
Definition ncs_add (t : ncs_task) (res : nat) (len outer : Z) : option ncs_task :=
  if Z.eqb outer (-1) || (Z.leb 0 outer && Z.ltb outer (Z.of_nat (length t)))
  then Some (t ++ [NCS res len outer]) else None.

(** the loop over all_flat of one task (bounds.py:323-326) *)
Fixpoint add_flat (t : ncs_task) (l : list (nat * Z * Z)) : option ncs_task :=
  match l with
  | [] => Some t
  | (r, len, outer) :: l' => match ncs_add t r len outer with None => None | Some t' => add_flat t' l' end
  end.

(** get_cpp_nested_cs_model (bounds.py:319-328) *)
Fixpoint get_cpp_nested_cs_model (tasks : list (list csec)) : option (list ncs_task) :=
  match tasks with
  | [] => Some []
  | f :: r => match add_flat [] (all_flat f), get_cpp_nested_cs_model r with
              | Some t, Some ts => Some (t :: ts)
              | _, _ => None
              end
  end.

(** has_nested_requests (nested_cs.h:89-95) *)
Definition has_nested_requests (t : ncs_task) (i : nat) : bool :=
  existsb (fun c => Z.eqb (n_outer c) (Z.of_nat i)) (skipn (S i) t).

(** the loop of get_outermost; [fuel] bounds the number of iterations (nested_cs.h:97-105) *)
Fixpoint get_outermost (fuel : nat) (t : ncs_task) (cur : Z) : option Z :=
  match fuel with
  | O => None
  | S k => match cs_at t cur with
           | None => None
           | Some c => if is_nested c then get_outermost k t (n_outer c) else Some cur
           end
  end.

(** the loop of get_outer_locks: [held] is the index, the result the set of the
    resources inserted, as a list (nested_cs.cpp:68-78) *)
Fixpoint outer_locks_loop (fuel : nat) (t : ncs_task) (held : Z) (already : list nat) : option (list nat) :=
  if Z.eqb held (-1) then Some already else
  match fuel with
  | O => None
  | S k => match cs_at t held with
           | None => None
           | Some p => outer_locks_loop k t (n_outer p) (n_res p :: already)
           end
  end.

(** CriticalSection::get_outer_locks (nested_cs.cpp:66-79) *)
Definition get_outer_locks (fuel : nat) (c : ncs) (t : ncs_task) : option (list nat) :=
  outer_locks_loop fuel t (n_outer c) [].

(** the loop of has_common_outer (nested_cs.cpp:85-94) *)
Fixpoint common_outer_loop (fuel : nat) (t : ncs_task) (held : Z) (other : list nat) : option bool :=
  if Z.eqb held (-1) then Some false else
  match fuel with
  | O => None
  | S k => match cs_at t held with
           | None => None
           | Some p => if existsb (Nat.eqb (n_res p)) other then Some true else common_outer_loop k t (n_outer p) other
           end
  end.

(** CriticalSection::has_common_outer with a set of locks (nested_cs.cpp:81-95) *)
Definition has_common_outer (fuel : nat) (c : ncs) (this_task : ncs_task) (other : list nat) : option bool :=
  common_outer_loop fuel this_task (n_outer c) other.

(** has_common_outer with another critical section: the call is made on
    other_cs, but with the sections of this_task (nested_cs.h:45-56) *)
Definition has_common_outer_cs (fuel : nat) (c : ncs) (this_task : ncs_task) (other_cs : ncs) (other_task : ncs_task) : option bool :=
  if is_outermost c || is_outermost other_cs then Some false
  else match get_outer_locks fuel other_cs other_task with
       | None => None
       | Some l => has_common_outer fuel other_cs this_task l
       end.

(** directly_nested, as the list of the insertions into its sets: pairs of the
    resource of the outer section and that of the section (nested_cs.cpp:47-54) *)
Definition nest_pairs_of (t : ncs_task) : list (nat * nat) :=
  flat_map (fun c => if is_nested c
                     then match cs_at t (n_outer c) with Some p => [(n_res p, n_res c)] | None => [] end
                     else []) t.
(** the insertions for all tasks (nested_cs.cpp:40-56) *)
Definition nest_pairs (ts : list ncs_task) : list (nat * nat) := flat_map nest_pairs_of ts.
(** the keys of directly_nested: every requested resource (nested_cs.cpp:44-45) *)
Definition nest_keys (ts : list ncs_task) : list nat := nodup Nat.eq_dec (flat_map (map n_res) ts).
(** the set directly_nested[res] (nested_cs.cpp:44-53) *)
Definition directly_nested (ts : list ncs_task) (res : nat) : list nat :=
  nodup Nat.eq_dec (map snd (filter (fun p => Nat.eqb (fst p) res) (nest_pairs ts))).

(** hashmap from resources to sets: a partial function (nested_cs.cpp:10, 58) *)
Definition nmap := nat -> option (list nat).
(** assignment to an entry (nested_cs.cpp:18, 26-27) *)
Definition nset (m : nmap) (k : nat) (v : list nat) : nmap := fun x => if Nat.eqb x k then Some v else m x.
(** the entry, empty if it is new (nested_cs.cpp:22, 27) *)
Definition nget (m : nmap) (k : nat) : list nat := match m k with Some v => v | None => [] end.

(** build_trans_nest_rel: [dn res] is directly_nested[res] in the order of the
    iteration; None is exhausted fuel (nested_cs.cpp:8-31) *)
Fixpoint build_trans (fuel : nat) (dn : nat -> list nat) (tr : nmap) (res : nat) : option nmap :=
  match fuel with
  | O => None
  | S k =>
    match tr res with
    | Some _ => Some tr
    | None =>
      (fix children (l : list nat) (tr : nmap) : option nmap :=
         match l with
         | [] => Some tr
         | nres :: l' =>
           match build_trans k dn tr nres with
           | None => None
           | Some tr1 => children l' (nset tr1 res (nget tr1 nres ++ nres :: nget tr1 res))
           end
         end) (dn res) (nset tr res [])
    end
  end.

(** the loop over the keys (nested_cs.cpp:58-60) *)
Fixpoint build_all (fuel : nat) (dn : nat -> list nat) (tr : nmap) (keys : list nat) : option nmap :=
  match keys with
  | [] => Some tr
  | k :: r => match build_trans fuel dn tr k with None => None | Some tr' => build_all fuel dn tr' r end
  end.

(** get_transitive_nesting_relationship; [order] is the order in which a hash
    set or the keys of a hash map are visited (nested_cs.cpp:35-63) *)
Definition get_transitive_nesting_relationship (fuel : nat) (order : list nat -> list nat) (ts : list ncs_task) : option nmap :=
  build_all fuel (fun r => order (directly_nested ts r)) (fun _ => None) (order (nest_keys ts)).
