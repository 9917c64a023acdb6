(** Model of schedcat/mapping/rollback.py: bins with transactions and the
    heuristics on top of them.  Sizes and capacities are exact rationals.

    A bin is a value; the list of bins is the heap.  An item is a value too.
    Python shares one item object between all bins it is temporarily assigned
    to, and DuctileBin changes that object (determine_size), so every operation
    returns the item as it is afterwards and the bins that hold it are updated
    ([refresh]).  Definitions only. *)
From Coq Require Import QArith List Bool Arith.
From Verif Require Import Base ModelBinpack.
Import ListNotations.
Open Scope Q_scope.

Section Rollback.
  Context {A : Type}.
  (** [size] of Bin (rollback.py:102-106), [item.size()] for DuctileBin (rollback.py:183-184) *)
  Variable size : A -> Q.
  (** Bin or DuctileBin (rollback.py:101, 176) *)
  Variable ductile : bool.
  (** [obj.update_size(new_item, bin)] (rollback.py:146-149, 191-192): arguments
      are the new item, the items in the bin, the item to change.
      Simplification: the items passed are those before the loop. *)
  Variable upd : A -> list A -> A -> A.
  (** [new_item.determine_size(bin)] (rollback.py:151-154, 193) *)
  Variable det : A -> list A -> A.
  (** [global_validate] (rollback.py:126-128) as a function of the contents of
      all bins; constantly true for Bin and DuctileBin. *)
  Variable global_validate : list (list A) -> bool.

  (** Bin's fields (rollback.py:47-48, 103-106) and DuctileBin.saved_items (rollback.py:187) *)
  Record bin := Bin { max_capacity : Q; items : list A; saved_items : option (list A) }.

  (** [sum([self.size(x) for x in self.items])] (rollback.py:112,115) *)
  Definition sum_sizes (l : list A) : Q := fold_right (fun x s => size x + s) 0 l.

  (** allocated_capacity (rollback.py:114-115) *)
  Definition allocated_capacity (b : bin) : Q := sum_sizes (items b).
  (** spare_capacity (rollback.py:117-118) *)
  Definition spare_capacity (b : bin) : Q := max_capacity b - allocated_capacity b.
  (** infeasible_to_fit (rollback.py:120-121) *)
  Definition infeasible_to_fit (b : bin) (x : A) : bool := negb (Qle_bool (size x) (spare_capacity b)).

  (** prepare (rollback.py:55-58; DuctileBin: 186-188) *)
  Definition prepare (b : bin) : bin :=
    if ductile then Bin (max_capacity b) (items b) (Some (items b)) else b.

  (** temporary_assign (rollback.py:60-62; DuctileBin: 190-194) *)
  Definition temporary_assign (x : A) (b : bin) : bin * A :=
    if ductile then
      let its := map (upd x (items b)) (items b) in
      let x' := det x its in
      (Bin (max_capacity b) (its ++ [x']) (saved_items b), x')
    else (Bin (max_capacity b) (items b ++ [x]) (saved_items b), x).

  (** rollback (rollback.py:72-75; DuctileBin: 196-198).  [items] would become
      None if prepare had not been called; here it becomes []. *)
  Definition rollback (b : bin) : bin :=
    if ductile then Bin (max_capacity b) (match saved_items b with Some s => s | None => [] end) None
    else Bin (max_capacity b) (removelast (items b)) (saved_items b).

  (** commit (rollback.py:68-70) *)
  Definition commit (b : bin) : bin := b.

  Definition contents (bins : list bin) : list (list A) := map items bins.  (** what global_validate looks at (rollback.py:131) *)

  (** validate of bin [i] (rollback.py:111-112, 130-131) *)
  Definition validate (bins : list bin) (i : nat) : bool :=
    match nth_error bins i with
    | Some b => Qle_bool (sum_sizes (items b)) (max_capacity b) && global_validate (contents bins)
    | None => false
    end.

  (** [prepare] and [temporary_assign] on bin [i] (rollback.py:78-79, 323-324) *)
  Definition assign (bins : list bin) (i : nat) (x : A) : list bin * A :=
    match nth_error bins i with
    | Some b => let '(b', x') := temporary_assign x (prepare b) in (update i (fun _ => b') bins, x')
    | None => (bins, x)
    end.

  (** try_to_add (rollback.py:77-85): whether it fit, the bins, the item *)
  Definition try_to_add (bins : list bin) (i : nat) (x : A) : bool * list bin * A :=
    let '(bins1, x') := assign bins i x in
    if validate bins1 i then (true, update i commit bins1, x') else (false, update i rollback bins1, x').

  (** try_to_add_no_commit (rollback.py:87-94) *)
  Definition try_to_add_no_commit (bins : list bin) (i : nat) (x : A) : bool * list bin * A :=
    let '(bins1, x') := assign bins i x in
    if validate bins1 i then (true, bins1, x') else (false, update i rollback bins1, x').

  (** A heuristic object's mutable state (rollback.py:247-251, 292-294) *)
  Record state := State { bins : list bin; cur_index : nat; misfits : list A; remaining_items : list A }.

  (** Heuristic.try_to_place_item (rollback.py:256-260) for the selections that
      are a list of bins with the infeasible ones skipped, as in FirstFit
      (rollback.py:305-310) and CapacityBased (rollback.py:359-361). *)
  Fixpoint try_bins (idxs : list nat) (bs : list bin) (x : A) : bool * list bin * A :=
    match idxs with
    | [] => (false, bs, x)
    | i :: r =>
      match nth_error bs i with
      | None => try_bins r bs x
      | Some b =>
        if infeasible_to_fit b x then try_bins r bs x
        else match try_to_add bs i x with
             | (true, bs', x') => (true, bs', x')
             | (false, bs', x') => try_bins r bs' x'
             end
      end
    end.

  (** FirstFit (rollback.py:305-310) *)
  Definition place_first (bs : list bin) (x : A) := try_bins (seq 0 (length bs)) bs x.

  (** NextFit.select_bins_for_item (rollback.py:296-302); [n] is
      [len(self.bins) - cur_index].  Returns cur_index as well. *)
  Fixpoint try_next (n cur : nat) (bs : list bin) (x : A) : bool * list bin * A * nat :=
    match n with
    | O => (false, bs, x, cur)
    | S n' =>
      match nth_error bs cur with
      | None => (false, bs, x, cur)
      | Some b =>
        if infeasible_to_fit b x then try_next n' (S cur) bs x
        else match try_to_add bs cur x with
             | (true, bs', x') => (true, bs', x', cur)
             | (false, bs', x') => try_next n' (S cur) bs' x'
             end
      end
    end.

  (** CapacityBased.select_bins_for_item with MaxSpareCapacity.order_bins
      (rollback.py:356-361, 369-370): stable, descending *)
  Definition spare_at (bs : list bin) (i : nat) : Q :=
    match nth_error bs i with Some b => spare_capacity b | None => 0 end.
  Definition place_max_spare (bs : list bin) (x : A) :=
    try_bins (sort_key_desc (spare_at bs) (seq 0 (length bs))) bs x.

  (** MinSpareCapacity (rollback.py:378-379): stable, ascending *)
  Definition place_min_spare (bs : list bin) (x : A) :=
    try_bins (sort_key_desc (fun i => - spare_at bs i) (seq 0 (length bs))) bs x.

  (** The item object appended to bin [i] changes: the last element of its list
      is the same object (rollback.py:193-194, 324) *)
  Definition refresh (x : A) (b : bin) : bin := Bin (max_capacity b) (removelast (items b) ++ [x]) (saved_items b).
  Definition refresh_all (packed : list nat) (x : A) (bs : list bin) : list bin :=
    fold_left (fun bs i => update i (refresh x) bs) packed bs.

  (** FitBased.try_to_place_item, first loop (rollback.py:321-328) *)
  Fixpoint fit_loop (candidates packed : list nat) (bs : list bin) (x : A) : list nat * list bin * A :=
    match candidates with
    | [] => (packed, bs, x)
    | i :: r =>
      let '(bs1, x') := assign bs i x in
      let bs2 := refresh_all packed x' bs1 in
      if validate bs2 i then fit_loop r (packed ++ [i]) bs2 x'
      else fit_loop r packed (update i rollback bs2) x'
    end.

  (** [remainders.index(max(remainders))] / [min] (rollback.py:335, 345-352):
      first bin whose remainder no other beats *)
  Fixpoint select_first (better : Q -> Q -> bool) (bs : list bin) (best : nat) (l : list nat) : nat :=
    match l with
    | [] => best
    | i :: r => select_first better bs (if better (spare_at bs i) (spare_at bs best) then i else best) r
    end.

  (** FitBased.try_to_place_item (rollback.py:313-342) *)
  Definition place_fit (better : Q -> Q -> bool) (bs : list bin) (x : A) : bool * list bin * A :=
    let candidates := filter (fun i => match nth_error bs i with Some b => negb (infeasible_to_fit b x) | None => false end)
                             (seq 0 (length bs)) in
    let '(packed, bs1, x') := fit_loop candidates [] bs x in
    match packed with
    | [] => (false, bs1, x')
    | i :: r =>
      let best := select_first better bs1 i r in
      (true, fold_left (fun bs j => if Nat.eqb j best then bs else update j rollback bs) packed
               (update best commit bs1), x')
    end.

  (** [max] and [min] replace the current value only by a strictly better one *)
  Definition larger (a b : Q) : bool := negb (Qle_bool a b).  (** WorstFit (rollback.py:345-347) *)
  Definition smaller (a b : Q) : bool := negb (Qle_bool b a). (** BestFit (rollback.py:350-352) *)
  Definition place_worst := place_fit larger.   (** rollback.py:345-347 *)
  Definition place_best := place_fit smaller.   (** rollback.py:350-352 *)

  (** Which heuristic class (rollback.py:291-379) *)
  Inductive heuristic := NextFit | FirstFit | WorstFit | BestFit | MaxSpareCapacity | MinSpareCapacity.

  (** try_to_place_item of each class: fits, bins, item, cur_index (rollback.py:256-260, 291-379) *)
  Definition try_to_place_item (h : heuristic) (bs : list bin) (cur : nat) (x : A) : bool * list bin * A * nat :=
    match h with
    | NextFit => try_next (length bs - cur) cur bs x
    | FirstFit => (place_first bs x, cur)
    | WorstFit => (place_worst bs x, cur)
    | BestFit => (place_best bs x, cur)
    | MaxSpareCapacity => (place_max_spare bs x, cur)
    | MinSpareCapacity => (place_min_spare bs x, cur)
    end.

  (** One iteration of binpack's while loop (rollback.py:268-287).
      [make_bin] yields the same bin every time.  Result: counted?, bins, item, cur_index *)
  Definition place_or_open (h : heuristic) (make_bin : option bin) (bs : list bin) (cur : nat) (x : A)
      : bool * list bin * A * nat :=
    match try_to_place_item h bs cur x with
    | (true, bs', x', cur') => (true, bs', x', cur')
    | (false, bs', x', cur') =>
      match make_bin with
      | None => (false, bs', x', cur')
      | Some b => let '(ok, bs'', x'') := try_to_add (bs' ++ [b]) (length bs') x' in (ok, bs'', x'', cur')
      end
    end.

  (** binpack's while loop (rollback.py:266-288).  [raises] tells whether
      report_misfit raises; the flag of the result is true if it did. *)
  Fixpoint binpack_loop (h : heuristic) (make_bin : option bin) (raises : A -> bool) (todo : list A)
      (bs : list bin) (cur : nat) (mis : list A) (count : nat) : state * nat * bool :=
    match todo with
    | [] => (State bs cur mis [], count, false)
    | x :: r =>
      match place_or_open h make_bin bs cur x with
      | (true, bs', _, cur') => binpack_loop h make_bin raises r bs' cur' mis (S count)
      | (false, bs', x', cur') =>
        if raises x' then (State bs' cur' (mis ++ [x']) r, count, true)
        else binpack_loop h make_bin raises r bs' cur' (mis ++ [x']) count
      end
    end.

  (** binpack (rollback.py:262-288) *)
  Definition binpack (h : heuristic) (make_bin : option bin) (raises : A -> bool) (new : list A) (s : state)
      : state * nat * bool :=
    binpack_loop h make_bin raises (remaining_items s ++ new) (bins s) (cur_index s) (misfits s) 0.
End Rollback.
Arguments Bin {A}. Arguments State {A}.
