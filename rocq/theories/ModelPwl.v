(** Model of the piece-wise linear functions of schedcat/util/math.py, over
    exact rationals.  Definitions only. *)
From Coq Require Import ZArith QArith List Bool.
Import ListNotations.
Open Scope Q_scope.

(** a sample (x, y) (math.py:57) *)
Notation point := (Q * Q)%type.

(** LinearEqu: a + b x (math.py:28-31) *)
Record linear := Linear { l_a : Q; l_b : Q }.

(** LinearEqu.__call__ (math.py:40-41); for b = 0 the term is left out *)
Definition linear_call (f : linear) (x : Q) : Q := l_a f + (if Qeq_bool (l_b f) 0 then 0 else l_b f * x).

(** LinearEqu.__add__ (math.py:43-44) *)
Definition linear_add (f g : linear) : linear := Linear (l_a f + l_a g) (l_b f + l_b g).

(** LinearEqu.__mul__ (math.py:46-47) *)
Definition linear_mul (f : linear) (s : Q) : linear := Linear (l_a f * s) (l_b f * s).

(** LinearEqu.is_constant (math.py:52-53) *)
Definition linear_is_constant (f : linear) : bool := Qeq_bool (l_b f) 0.

(** const (math.py:92-93) *)
Definition const (x : Q) : linear := Linear x 0.

(** slope of a segment (math.py:60-69) *)
Definition slope (p q : point) : Q :=
  let dy := snd q - snd p in
  let dx := fst q - fst p in
  if negb (Qeq_bool dx 0) then dy / dx else 0.

(** yintercept of a segment (math.py:71-74) *)
Definition yintercept (p q : point) : Q := snd p - slope p q * fst p.

(** self.segments (math.py:76-77) *)
Fixpoint segments (points : list point) : list linear :=
  match points with
  | p :: ((q :: _) as r) => Linear (yintercept p q) (slope p q) :: segments r
  | _ => []
  end.

(** self.lookup (math.py:78) *)
Definition lookup (points : list point) : list Q := map fst (tl points).

(** bisect_left(lookup, x, hi=hi) (math.py:83): for a sorted list the first
    index below hi whose entry is not below x, and hi if there is none.  The
    binary search of the library is replaced by this linear one. *)
Fixpoint find_index (l : list Q) (x : Q) (hi : nat) : nat :=
  match hi, l with
  | S h, a :: r => if Qle_bool x a then O else S (find_index r x h)
  | _, _ => O
  end.

(** Python's max of two numbers: the first unless the second is larger (math.py:87, 110) *)
Definition py_max (a b : Q) : Q := if negb (Qle_bool b a) then b else a.

(** PieceWiseLinearEqu.__call__ (math.py:79, 81-87) *)
Definition pwl_call (points : list point) (x : Q) : Q :=
  let i := find_index (lookup points) x (length (lookup points) - 1) in
  py_max 0 (linear_call (nth i (segments points) (Linear 0 0)) x).

(** what monotonic_pwlin returns: a constant LinearEqu or a PieceWiseLinearEqu (math.py:132-139) *)
Inductive overhead := OLinear (f : linear) | OPwl (points : list point).

(** calling it (math.py:40, 81) *)
Definition overhead_call (f : overhead) (x : Q) : Q :=
  match f with OLinear l => linear_call l x | OPwl pts => pwl_call pts x end.

(** loop body of make_monotonic (math.py:108-115); [filtered] is kept in reverse *)
Definition mono_step (st : list point * option Q * Q) (p : point) : list point * option Q * Q :=
  let '(filtered, prevprev, prev) := st in
  let y := py_max prev (snd p) in
  let filtered := match prevprev with
                  | Some v => if Qeq_bool v y then tl filtered else filtered
                  | None => filtered
                  end in
  ((fst p, y) :: filtered, Some prev, y).

(** make_monotonic (math.py:104-121); None is the IndexError for an empty list *)
Definition make_monotonic (points : list point) : option (list point) :=
  match points with
  | [] => None
  | p :: r =>
    let '(filtered, _, _) := fold_left mono_step r ([p], None, snd p) in
    let filtered := match filtered with
                    | [q; p0] => if Qeq_bool (snd q) (snd p0) then [p0] else filtered
                    | _ => filtered
                    end in
    Some (rev filtered)
  end.

(** is_monotonic (math.py:123-130); None is a failed assertion or an empty list *)
Fixpoint is_monotonic_from (p : point) (points : list point) : option bool :=
  match points with
  | [] => Some true
  | q :: r => if negb (Qle_bool (fst q) (fst p)) then
                if negb (Qle_bool (snd p) (snd q)) then Some false else is_monotonic_from q r
              else None
  end.

(** is_monotonic (math.py:123-130) *)
Definition is_monotonic (points : list point) : option bool :=
  match points with [] => None | p :: r => is_monotonic_from p r end.

(** monotonic_pwlin (math.py:132-139); None is an exception *)
Definition monotonic_pwlin (points : list point) : option overhead :=
  match make_monotonic points with
  | None => None
  | Some ascending =>
    if (2 <=? length ascending)%nat then Some (OPwl ascending)
    else match ascending with
         | p :: _ => Some (OLinear (const (snd p)))
         | [] => Some (OLinear (const 0))
         end
  end.
