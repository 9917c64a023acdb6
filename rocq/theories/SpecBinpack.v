(** Independent specification of bin packing. *)
From Coq Require Import QArith List Permutation.
Import ListNotations.
Open Scope Q_scope.

(** Total weight of the items in a bin. *)
Fixpoint load {A} (w : A -> Q) (bin : list A) : Q :=
  match bin with [] => 0 | x :: r => w x + load w r end.

(** The item of weight [c] fits into bin [i]. *)
Definition fits (cap : Q) (loads : list Q) (c : Q) (i : nat) : Prop :=
  exists l, nth_error loads i = Some l /\ l + c <= cap.

(** Selection rules: loads of the bins, weight of the item, decision. *)
Definition rule := list Q -> Q -> option nat -> Prop.

Definition misfit_iff (cap : Q) (loads : list Q) (c : Q) : Prop := forall i, ~ fits cap loads c i.

Definition first_rule (cap : Q) : rule := fun loads c d =>
  match d with
  | None => misfit_iff cap loads c
  | Some i => fits cap loads c i /\ forall j, (j < i)%nat -> ~ fits cap loads c j
  end.

(** the least loaded bin that fits, the first one of them *)
Definition worst_rule (cap : Q) : rule := fun loads c d =>
  match d with
  | None => misfit_iff cap loads c
  | Some i => fits cap loads c i /\
      forall j li lj, fits cap loads c j -> nth_error loads i = Some li -> nth_error loads j = Some lj ->
        li <= lj /\ (li == lj -> (i <= j)%nat)
  end.

(** the most loaded bin that fits, the first one of them *)
Definition best_rule (cap : Q) : rule := fun loads c d =>
  match d with
  | None => misfit_iff cap loads c
  | Some i => fits cap loads c i /\
      forall j li lj, fits cap loads c j -> nth_error loads i = Some li -> nth_error loads j = Some lj ->
        lj <= li /\ (li == lj -> (i <= j)%nat)
  end.

(** the second least loaded bin that fits: some other fitting bin [k] is at
    most as loaded and every fitting bin but [k] at least as loaded; the only
    fitting bin if there is just one *)
Definition almost_worst_rule (cap : Q) : rule := fun loads c d =>
  match d with
  | None => misfit_iff cap loads c
  | Some i => fits cap loads c i /\
      ((forall j, fits cap loads c j -> j = i) \/
       exists k lk li, k <> i /\ fits cap loads c k /\ nth_error loads k = Some lk /\ nth_error loads i = Some li /\ lk <= li /\
         forall j lj, j <> k -> fits cap loads c j -> nth_error loads j = Some lj -> li <= lj)
  end.

(** A run: items are considered in order; each goes to the end of the chosen
    bin or is reported. *)
Inductive run {A} (w : A -> Q) (r : rule) : list A -> list (list A) -> list (list A) -> list A -> Prop :=
| run_done : forall bins, run w r [] bins bins []
| run_place : forall x items pre bin post bins' rep,
    r (map (load w) (pre ++ bin :: post)) (w x) (Some (length pre)) ->
    run w r items (pre ++ (bin ++ [x]) :: post) bins' rep ->
    run w r (x :: items) (pre ++ bin :: post) bins' rep
| run_report : forall x items bins bins' rep,
    r (map (load w) bins) (w x) None ->
    run w r items bins bins' rep -> run w r (x :: items) bins bins' (x :: rep).

(** Items in non-increasing weight; equal weights in their given order. *)
Inductive decreasing_order {A} (w : A -> Q) : list A -> Prop :=
| dec_nil : decreasing_order w []
| dec_cons : forall x l, (forall y, In y l -> w y <= w x) -> decreasing_order w l -> decreasing_order w (x :: l).

(** next fit: the bins before the current one, the current bin, the number of
    bins after it.  An item that does not fit closes the current bin; when no
    bin is left the item is reported and the items after it are not looked at. *)
Inductive next_run {A} (w : A -> Q) (cap : Q) : list A -> list (list A) -> list A -> nat -> list (list A) -> list A -> Prop :=
| next_done : forall before bin after, next_run w cap [] before bin after (before ++ bin :: repeat [] after) []
| next_here : forall x items before bin after out rep, load w bin + w x <= cap ->
    next_run w cap items before (bin ++ [x]) after out rep -> next_run w cap (x :: items) before bin after out rep
| next_close : forall x items before bin after out rep, cap < load w bin + w x ->
    next_run w cap (x :: items) (before ++ [bin]) [] after out rep -> next_run w cap (x :: items) before bin (S after) out rep
| next_stop : forall x items before bin, cap < load w bin + w x ->
    next_run w cap (x :: items) before bin 0 (before ++ [bin]) [x].

(** A run that opens a new bin for an item the rule would report. *)
Inductive grow {A} (w : A -> Q) (r : rule) : list A -> list (list A) -> list (list A) -> Prop :=
| grow_done : forall bins, grow w r [] bins bins
| grow_place : forall x items pre bin post bins',
    r (map (load w) (pre ++ bin :: post)) (w x) (Some (length pre)) ->
    grow w r items (pre ++ (bin ++ [x]) :: post) bins' ->
    grow w r (x :: items) (pre ++ bin :: post) bins'
| grow_open : forall x items bins bins',
    r (map (load w) bins) (w x) None ->
    grow w r items (bins ++ [[x]]) bins' -> grow w r (x :: items) bins bins'.
