(** Model of schedcat/mapping/binpack.py.  Weights and capacities are exact
    rationals instead of floats; [empty_bin] is the empty list; the number of
    bins is a natural number ([xrange(0, bins)]).  Definitions only. *)
From Coq Require Import QArith List Bool Arith.
From Verif Require Import Base ModelTasks.
Import ListNotations.
Open Scope Q_scope.

Section Binpack.
  Context {A : Type}.
  (** [weight] and [capacity] arguments (binpack.py:65) *)
  Variable weight : A -> Q.
  Variable capacity : Q.

  (** The [misfit] callback (binpack.py:56-60): either it returns (like
      [ignore]; the call is recorded) or it raises DidNotFit (like
      [report_failure]). *)
  Variable raises : A -> bool.

  (** Result of a call: the bins and the items reported to [misfit] in order,
      the exception raised by [misfit] (binpack.py:49-51), or an IndexError or
      a non-terminating loop, which next_fit runs into without bins. *)
  Inductive packing := Sets (sets : list (list A)) (reported : list A) | DidNotFit (item : A) | Crash.

  (** [l[i] = f(l[i])] (binpack.py:78,90-91) *)
  Fixpoint update {B} (i : nat) (f : B -> B) (l : list B) : list B :=
    match l, i with
    | [], _ => []
    | b :: r, O => f b :: r
    | b :: r, S i' => b :: update i' f r
    end.
  Definition put (i : nat) (x : A) (sets : list (list A)) := update i (fun s => s ++ [x]) sets.

  (** [sums[i] + c <= capacity] (binpack.py:89,106,124,154) *)
  Definition fitsb (c s : Q) : bool := Qle_bool (s + c) capacity.

  (** next_fit's inner while loop (binpack.py:72-77): returns the bin and the
      sum to continue with, [None] when the bins are used up.  [left] is
      [bins - cur], at least 1. *)
  Fixpoint advance (left cur : nat) (sum c : Q) : option (nat * Q) :=
    if negb (Qle_bool (sum + c) capacity) then
      match left with
      | S l => match l with O => None | S _ => advance l (S cur) 0 c end
      | O => None
      end
    else Some (cur, sum).

  (** next_fit's for loop (binpack.py:70-80) *)
  Fixpoint next_fit_loop (bins : nat) (items : list A) (sets : list (list A)) (cur : nat) (sum : Q) : packing :=
    match items with
    | [] => Sets sets []
    | x :: r =>
      match advance (bins - cur) cur sum (weight x) with
      | None => if raises x then DidNotFit x else Sets sets [x]
      | Some (cur', sum') => next_fit_loop bins r (put cur' x sets) cur' (sum' + weight x)
      end
    end.

  (** next_fit (binpack.py:65-80).  Without bins the first item either hits
      [sets[0]] of an empty list or loops past [cur == bins]. *)
  Definition next_fit (items : list A) (bins : nat) : packing :=
    match bins, items with
    | O, _ :: _ => Crash
    | _, _ => next_fit_loop bins items (repeat [] bins) 0 0
    end.

  (** The loop shared by first_fit, worst_fit, almost_worst_fit and best_fit
      with a fixed number of bins (binpack.py:86-96, 102-114, 120-133,
      148-167): [pick sums c] is the index chosen, [None] the misfit branch. *)
  Fixpoint pack_loop (pick : list Q -> Q -> option nat) (items : list A)
      (sets : list (list A)) (sums : list Q) (reported : list A) : packing :=
    match items with
    | [] => Sets sets reported
    | x :: r =>
      let c := weight x in
      match pick sums c with
      | Some i => pack_loop pick r (put i x sets) (update i (fun s => s + c) sums) reported
      | None => if raises x then DidNotFit x else pack_loop pick r sets sums (reported ++ [x])
      end
    end.

  Definition pack (pick : list Q -> Q -> option nat) (items : list A) (bins : nat) : packing :=
    pack_loop pick items (repeat [] bins) (repeat 0 bins) [].

  (** first_fit: [for i in xrange(0, bins): if ...: break] (binpack.py:88-92) *)
  Fixpoint pick_first (sums : list Q) (c : Q) : option nat :=
    match sums with
    | [] => None
    | s :: r => if fitsb c s then Some O else option_map S (pick_first r c)
    end.

  (** [sums.index(v)] (binpack.py:109,128) *)
  Fixpoint index (v : Q) (l : list Q) : option nat :=
    match l with
    | [] => None
    | s :: r => if Qeq_bool s v then Some O else option_map S (index v r)
    end.

  (** [min(candidates)] of a non-empty list (binpack.py:109) *)
  Definition qmin_list (a : Q) (l : list Q) : Q :=
    fold_left (fun m x => if negb (Qle_bool m x) then x else m) l a.

  (** worst_fit (binpack.py:106-109) *)
  Definition pick_worst (sums : list Q) (c : Q) : option nat :=
    match filter (fitsb c) sums with
    | [] => None
    | a :: r => index (qmin_list a r) sums
    end.

  (** [candidates.sort()] (binpack.py:127).  Simplification: insertion sort. *)
  Fixpoint insert_asc (x : Q) (l : list Q) : list Q :=
    match l with
    | [] => [x]
    | y :: r => if Qle_bool x y then x :: l else y :: insert_asc x r
    end.
  Definition sort_asc (l : list Q) : list Q := fold_right insert_asc [] l.

  (** almost_worst_fit (binpack.py:124-128) *)
  Definition pick_almost_worst (sums : list Q) (c : Q) : option nat :=
    match sort_asc (filter (fitsb c) sums) with
    | [] => None
    | [a] => index a sums
    | _ :: b :: _ => index b sums
    end.

  (** Stable [sort(key=..., reverse=True)] (binpack.py:152,186).
      Simplification: insertion sort; elements with equal keys keep their
      order, as in Python. *)
  Fixpoint insert_key {B} (key : B -> Q) (x : B) (l : list B) : list B :=
    match l with
    | [] => [x]
    | y :: r => if Qle_bool (key y) (key x) then x :: l else y :: insert_key key x r
    end.
  Definition sort_key_desc {B} (key : B -> Q) (l : list B) : list B := fold_right (insert_key key) [] l.

  (** best_fit (binpack.py:150-157) *)
  Definition pick_best (sums : list Q) (c : Q) : option nat :=
    find (fun i => fitsb c (nth i sums 0)) (sort_key_desc (fun i => nth i sums 0) (seq 0 (length sums))).

  Definition first_fit := pack pick_first.          (** binpack.py:82-96 *)
  Definition worst_fit := pack pick_worst.          (** binpack.py:98-114 *)
  Definition almost_worst_fit := pack pick_almost_worst.  (** binpack.py:116-133 *)

  (** best_fit with [bins = 0] (binpack.py:141-147, 148-164) *)
  Fixpoint best_fit_grow (items : list A) (sets : list (list A)) (sums : list Q) : packing :=
    match items with
    | [] => Sets sets []
    | x :: r =>
      let c := weight x in
      match pick_best sums c with
      | Some i => best_fit_grow r (put i x sets) (update i (fun s => s + c) sums)
      | None => best_fit_grow r (sets ++ [[x]]) (sums ++ [c])
      end
    end.

  (** best_fit (binpack.py:135-167) *)
  Definition best_fit (items : list A) (bins : nat) : packing :=
    match bins with
    | O => best_fit_grow items [[]] [0]
    | S _ => pack pick_best items bins
    end.
End Binpack.

Arguments Sets {A}. Arguments DidNotFit {A}. Arguments Crash {A}.

(** any_fit (binpack.py:169-180): the heuristics are called with
    report_failure, i.e. a misfit that always raises. *)
Definition heuristics {A} (weight : A -> Q) (capacity : Q) : list (list A -> nat -> packing) :=
  let strict (_ : A) := true in
  [next_fit weight capacity strict; first_fit weight capacity strict; worst_fit weight capacity strict;
   almost_worst_fit weight capacity strict; best_fit weight capacity strict].

(** The for loop over the heuristics (binpack.py:171-176): the first result
    without DidNotFit, or the last item that did not fit. *)
Fixpoint try_all {A} (hs : list (list A -> nat -> @packing A)) (items : list A) (bins : nat)
    (last : @packing A) : @packing A :=
  match hs with
  | [] => last
  | h :: r => match h items bins with
              | DidNotFit x => try_all r items bins (DidNotFit x)
              | res => res
              end
  end.

(** any_fit (binpack.py:169-180) *)
Definition any_fit {A} (weight : A -> Q) (capacity : Q) (raises : A -> bool) (items : list A) (bins : nat) : packing :=
  match try_all (heuristics weight capacity) items bins Crash with
  | DidNotFit x =>
    if raises x then DidNotFit x
    else match next_fit weight capacity raises items bins with
         | Sets s rep => Sets s (x :: rep)
         | res => res
         end
  | res => res
  end.

(** decreasing (binpack.py:182-195) *)
Definition decreasing {A} (weight : A -> Q) (alg : list A -> nat -> @packing A) (items : list A) (bins : nat) : packing :=
  alg (sort_key_desc weight items) bins.
