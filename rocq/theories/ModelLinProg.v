(** Model of the linear programs of schedcat/util/linprog.py.  Definitions only.
    Numbers are rationals.  A call that raises an exception yields [None]. *)
From Coq Require Import QArith Qround String List Bool ZArith.
Import ListNotations.
Open Scope Q_scope.

(** a list of pairs of a coefficient and a variable name (linprog.py:14-15) *)
Definition vector : Type := list (Q * string).

(** the attributes of LinearProgram (linprog.py:62-67; local_objective: linprog.py:164-165);
    the name is left out *)
Record linear_program := LP { equalities : list (vector * Q); inequalities : list (vector * Q); objective_function : option vector;
  local_objective : option vector; goal : string }.

(** __init__ (linprog.py:62-67) *)
Definition empty_program : linear_program := LP [] [] None None "Maximize".

(** add_inequality (linprog.py:71-72) *)
Definition add_inequality (p : linear_program) (v : vector) (upper_bound : Q) : linear_program :=
  LP (equalities p) (inequalities p ++ [(v, upper_bound)]) (objective_function p) (local_objective p) (goal p).
(** add_equality (linprog.py:74-75) *)
Definition add_equality (p : linear_program) (v : vector) (value : Q) : linear_program :=
  LP (equalities p ++ [(v, value)]) (inequalities p) (objective_function p) (local_objective p) (goal p).
(** set_objective (linprog.py:77-78) *)
Definition set_objective (p : linear_program) (v : vector) : linear_program :=
  LP (equalities p) (inequalities p) (Some v) (local_objective p) (goal p).

(** filter_vars (linprog.py:37-38) *)
Definition filter_vars (removed : list string) (sum : vector) : vector :=
  filter (fun p => negb (existsb (String.eqb (snd p)) removed)) sum.

(** apply_prefix (linprog.py:40-42) *)
Definition apply_prefix (v : vector) (prefix : string) : vector := map (fun p => (fst p, (prefix ++ "_" ++ snd p)%string)) v.

(** apply_variable_prefix (linprog.py:80-85); without an objective the loop in
    apply_prefix raises.  local_objective is not changed. *)
Definition apply_variable_prefix (p : linear_program) (prefix : string) : option linear_program :=
  match objective_function p with
  | None => None
  | Some o => Some (LP (map (fun c => (apply_prefix (fst c) prefix, snd c)) (equalities p)) (map (fun c => (apply_prefix (fst c) prefix, snd c)) (inequalities p))
                       (Some (apply_prefix o prefix)) (local_objective p) (goal p))
  end.

(** merge (linprog.py:87-96): the program after the call.  That the lists are
    changed in place, and so in other programs that share them, is not modelled. *)
Definition merge (self other : linear_program) : option linear_program :=
  if negb (String.eqb (goal other) (goal self)) then None
  else match objective_function other with
       | None => None
       | Some o => Some (LP (equalities self ++ equalities other) (inequalities self ++ inequalities other)
                            (Some (match objective_function self with None => [] | Some s => s end ++ o)) (local_objective self) (goal self))
       end.

(** the variables that kill_non_positive_vars removes (linprog.py:153-161) *)
Definition killed_vars (p : linear_program) : list string :=
  flat_map (fun c => if Qle_bool (snd c) 0 then map snd (fst c) else []) (equalities p ++ inequalities p).

(** the constraints that remain (linprog.py:166-171) *)
Definition kill_constraints (killed : list string) (cs : list (vector * Q)) : list (vector * Q) :=
  filter (fun c => match fst c with [] => false | _ => true end)
    (map (fun c => (filter_vars killed (fst c), snd c)) (filter (fun c => negb (Qle_bool (snd c) 0)) cs)).

(** kill_non_positive_vars (linprog.py:148-171) *)
Definition kill_non_positive_vars (p : linear_program) : option linear_program :=
  match objective_function p with
  | None => None
  | Some o =>
      let killed := killed_vars p in
      Some (LP (kill_constraints killed (equalities p)) (kill_constraints killed (inequalities p)) (Some (filter_vars killed o))
               (option_map (filter_vars killed) (local_objective p)) (goal p))
  end.

(** a Solution (linprog.py:45-47) as the list of its items *)
Definition solution : Type := list (string * Q).

(** a dictionary lookup (linprog.py:52-53) *)
Fixpoint lookup (s : solution) (v : string) : option Q :=
  match s with [] => None | (w, x) :: r => if String.eqb v w then Some x else lookup r v end.

(** Solution.evaluate (linprog.py:49-54), also __call__ (linprog.py:56-57) *)
Definition evaluate (s : solution) (v : vector) : Q :=
  fold_left (fun value p => match lookup s (snd p) with Some x => value + fst p * x | None => value end) v 0.

(** the format '%f' for a bound (linprog.py:140, 143): six decimals, half to even *)
Definition percent_f (v : Q) : Q :=
  let s := v * 1000000 in let f := Qfloor s in let d := s - inject_Z f in
  inject_Z (if negb (Qle_bool (1 # 2) d) then f else if negb (Qle_bool d (1 # 2)) then f + 1 else if Z.even f then f else f + 1)%Z / 1000000.

(** the program that CPLEX reads from the file (linprog.py:134-145, 181-192).  The
    coefficients are printed with %s; they are taken to be exact here, which they
    are for integers. *)
Definition written (p : linear_program) : linear_program :=
  LP (map (fun c => (fst c, percent_f (snd c))) (equalities p)) (map (fun c => (fst c, percent_f (snd c))) (inequalities p)) (objective_function p) None (goal p).

(** solve_with_cplex (linprog.py:194-213); [solver] stands for CPLEX and yields the
    value of each variable *)
Definition solve_with_cplex (solver : linear_program -> string -> Q) (p : linear_program) : option solution :=
  match objective_function p with
  | None => None
  | Some [] => Some []
  | Some o => Some (map (fun t => (snd t, solver (written p) (snd t))) o)
  end.
