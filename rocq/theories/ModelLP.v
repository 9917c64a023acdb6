(** Model of the linear programs of the blocking analyses:
    native/include/linprog/{model,solver,varmapperbase}.h and
    native/include/lp_common.h.  Doubles are exact rationals; a program is
    generic in the type of its variables.  The solvers (glpk.cpp, cplex.cpp)
    are not modelled; SpecLP states what a solution is.  Definitions only. *)
From Coq Require Import NArith ZArith QArith Qround List Bool.
Import ListNotations.

(** LinearExpression: its terms (model.h:12-27) *)
Definition linexp (V : Type) := list (Q * V).

(** add_var and sub_var append a term with coefficient 1 or -1 (model.h:36-44) *)
Definition add_var {V} (v : V) : linexp V := [(1%Q, v)].
(** model.h:41-44 *)
Definition sub_var {V} (v : V) : linexp V := [((-1)%Q, v)].

(** Solution::evaluate (solver.h:14-24) *)
Definition evaluate {V} (value : V -> Q) (e : linexp V) : Q := fold_right (fun t s => (fst t * value (snd t) + s)%Q) 0%Q e.

(** LinearProgram: objective, equalities, inequalities (expression <= bound) and
    binary variables (model.h:87-113).  declare_variable_integer and
    declare_variable_bounds are not used by the modelled analyses *)
Record lprog (V : Type) := LP {
  lp_obj : linexp V; lp_eqs : list (linexp V * Q); lp_ineqs : list (linexp V * Q); lp_bins : list V }.
Arguments LP {V}. Arguments lp_obj {V}. Arguments lp_eqs {V}. Arguments lp_ineqs {V}. Arguments lp_bins {V}.

(** LinearProgram() (model.h:109) *)
Definition lp_empty {V} : lprog V := LP [] [] [] [].

(** has_terms (model.h:51-54) *)
Definition has_terms {V} (e : linexp V) : bool := match e with [] => false | _ => true end.

(** add_inequality (model.h:148-154) *)
Definition add_inequality {V} (e : linexp V) (bound : Q) (lp : lprog V) : lprog V :=
  if has_terms e then LP (lp_obj lp) (lp_eqs lp) (lp_ineqs lp ++ [(e, bound)]) (lp_bins lp) else lp.
(** add_equality (model.h:156-162) *)
Definition add_equality {V} (e : linexp V) (bound : Q) (lp : lprog V) : lprog V :=
  if has_terms e then LP (lp_obj lp) (lp_eqs lp ++ [(e, bound)]) (lp_ineqs lp) (lp_bins lp) else lp.
(** declare_variable_binary (model.h:125-128) *)
Definition declare_variable_binary {V} (v : V) (lp : lprog V) : lprog V :=
  LP (lp_obj lp) (lp_eqs lp) (lp_ineqs lp) (lp_bins lp ++ [v]).
(** obj->add_term for each term, as in set_spinlock_blocking_objective (lp_spinlocks.cpp:228-249) *)
Definition add_objective {V} (e : linexp V) (lp : lprog V) : lprog V :=
  LP (lp_obj lp ++ e) (lp_eqs lp) (lp_ineqs lp) (lp_bins lp).

(** the same program with other variables; no counterpart in the code, see [indexed] *)
Definition rename_exp {V W} (f : V -> W) (e : linexp V) : linexp W := map (fun t => (fst t, f (snd t))) e.
(** see [indexed] (no counterpart in the code; model.h:87-113) *)
Definition rename {V W} (f : V -> W) (lp : lprog V) : lprog W :=
  LP (rename_exp f (lp_obj lp)) (map (fun c => (rename_exp f (fst c), snd c)) (lp_eqs lp))
     (map (fun c => (rename_exp f (fst c), snd c)) (lp_ineqs lp)) (map f (lp_bins lp)).

(** blocking_type (lp_common.h:15-21); BLOCKING_ARRIVAL is BLOCKING_INDIRECT (lp_common.h:76) *)
Inductive btype := BLOCKING_DIRECT | BLOCKING_INDIRECT | BLOCKING_PREEMPT | BLOCKING_OTHER.
(** lp_common.h:76 *)
Notation BLOCKING_ARRIVAL := BLOCKING_INDIRECT.
(** the numeric value of the enumeration (lp_common.h:15-21) *)
Definition btype_code (b : btype) : N :=
  match b with BLOCKING_DIRECT => 0 | BLOCKING_INDIRECT => 1 | BLOCKING_PREEMPT => 2 | BLOCKING_OTHER => 3 end.

(** the arguments of VarMapper::lookup (lp_common.h:65-66) *)
Record var := Var { v_task : nat; v_res : nat; v_req : nat; v_type : btype }.

(** the assertions of encode_request (lp_common.h:32-35) *)
Definition encode_asserts (v : var) : bool :=
  (N.of_nat (v_task v) <? 2 ^ 30)%N && (N.of_nat (v_res v) <? 2 ^ 10)%N && (N.of_nat (v_req v) <? 2 ^ 22)%N && (btype_code (v_type v) <? 2 ^ 2)%N.

(** VarMapper::encode_request (lp_common.h:29-38); the result fits in 64 bits if the assertions hold *)
Definition encode_request (v : var) : N :=
  N.lor (N.lor (N.lor (N.shiftl (btype_code (v_type v)) 62) (N.shiftl (N.of_nat (v_task v)) 30)) (N.shiftl (N.of_nat (v_req v)) 10)) (N.of_nat (v_res v)).

(** get_task, get_req_id, get_res_id (lp_common.h:40-58) *)
Definition get_task (key : N) : N := N.land (N.shiftr key 30) 1073741823.
(** lp_common.h:45-48 *)
Definition get_type (key : N) : N := N.land (N.shiftr key 62) 15.
(** lp_common.h:50-53 *)
Definition get_req_id (key : N) : N := N.land (N.shiftr key 10) 1048575.
(** lp_common.h:55-58 *)
Definition get_res_id (key : N) : N := N.land key 1023.

(** VarMapperBase with start_var = 0 (varmapperbase.h:10-62): the keys in the
    order of insertion, so that next_var is the length and the value of a key
    in the hash map is its position.  The limit UINT_MAX on next_var is not modelled *)
Definition varmapper := list N.

(** the position of a key, if it exists (varmapperbase.h:27-35) *)
Fixpoint position (key : N) (m : varmapper) : option nat :=
  match m with
  | [] => None
  | k :: r => if (k =? key)%N then Some 0%nat else option_map S (position key r)
  end.

(** var_for_key with exists, insert and get; the mapper must not be sealed
    (varmapperbase.h:18-42) *)
Definition var_for_key (key : N) (m : varmapper) : nat * varmapper :=
  match position key m with Some i => (i, m) | None => (length m, m ++ [key]) end.

(** VarMapper::lookup (lp_common.h:65-70) *)
Definition lookup (v : var) (m : varmapper) : nat * varmapper := var_for_key (encode_request v) m.

(** get_num_vars (varmapperbase.h:70-73) *)
Definition get_num_vars (m : varmapper) : nat := length m.

(** a sequence of lookups: the indices and the final mapper (lp_common.h:65-70) *)
Fixpoint lookups (vs : list var) (m : varmapper) : list nat * varmapper :=
  match vs with
  | [] => ([], m)
  | v :: r => let '(i, m1) := lookup v m in let '(is, m2) := lookups r m1 in (i :: is, m2)
  end.

(** all variables of a program in the order in which they stand in it (no counterpart in
    the code: the variables exist there once they are looked up) *)
Definition lp_vars {V} (lp : lprog V) : list V :=
  map snd (concat (map fst (lp_eqs lp))) ++ map snd (concat (map fst (lp_ineqs lp))) ++ lp_bins lp ++ map snd (lp_obj lp).

(** The program over column indices that is passed to linprog_solve
    (lp_spinlock_msrp.cpp:180-193, lp_spinlocks.cpp:631-636).  Simplified: the code looks up a variable
    when it builds the term; as a lookup never changes earlier indices, every
    index is that of the final mapper.  [m] is the final mapper *)
Definition index_of (m : varmapper) (v : var) : nat := match position (encode_request v) m with Some i => i | None => length m end.
(** lp_spinlock_msrp.cpp:180-193 *)
Definition indexed (m : varmapper) (lp : lprog var) : lprog nat := rename (index_of m) lp.

(** lrint in the default rounding mode (lp_spinlock_msrp.cpp:203): to the nearest
    integer, ties to even *)
Definition lrint (q : Q) : Z :=
  let f := Qfloor q in
  match Qcompare (q - inject_Z f) (1 # 2) with
  | Lt => f
  | Gt => (f + 1)%Z
  | Eq => if Z.even f then f else (f + 1)%Z
  end.
