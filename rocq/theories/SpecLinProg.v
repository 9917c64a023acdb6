(** Specification of linear programs: assignments of non-negative values (the
    default bound of the LP file format) to the variables, and optima. *)
From Coq Require Import QArith String Ascii List.
From Verif Require Import ModelLinProg.
Import ListNotations.
Open Scope Q_scope.

Definition value (v : vector) (x : string -> Q) : Q := fold_right (fun p s => fst p * x (snd p) + s) 0 v.

Definition feasible (p : linear_program) (x : string -> Q) : Prop :=
  (forall v, 0 <= x v) /\ (forall c b, In (c, b) (equalities p) -> value c x == b) /\ (forall c b, In (c, b) (inequalities p) -> value c x <= b).

(** [x] is a solution of the program with objective [o] and optimum [v] *)
Definition solves (p : linear_program) (o : vector) (x : string -> Q) (v : Q) : Prop :=
  feasible p x /\ value o x == v /\ forall y, feasible p y -> value o y <= v.

Definition optimum (p : linear_program) (v : Q) : Prop :=
  goal p = "Maximize"%string /\ exists o x, objective_function p = Some o /\ solves p o x v.

(** the solver finds an optimal solution if there is one *)
Definition correct_solver (solver : linear_program -> string -> Q) : Prop :=
  forall p v, optimum p v -> exists o, objective_function p = Some o /\ solves p o (solver p) v.

Definition positive_coefficients (p : linear_program) : Prop :=
  forall c b k w, In (c, b) (equalities p ++ inequalities p) -> In (k, w) c -> 0 < k.

(** bounds that six decimals represent *)
Definition six_decimals (p : linear_program) : Prop := forall c b, In (c, b) (equalities p ++ inequalities p) -> exists n : Z, b == inject_Z n / 1000000.

(** the programs that are combined, each with its own prefix *)
Fixpoint combine_programs (acc : linear_program) (l : list (string * linear_program)) : option linear_program :=
  match l with
  | [] => Some acc
  | (pre, q) :: r => match apply_variable_prefix q pre with
                     | None => None
                     | Some q' => match merge acc q' with None => None | Some a => combine_programs a r end
                     end
  end.

Fixpoint no_underscore (s : string) : Prop := match s with EmptyString => True | String c r => c <> "_"%char /\ no_underscore r end.

Definition qtotal (l : list Q) : Q := fold_right Qplus 0 l.
