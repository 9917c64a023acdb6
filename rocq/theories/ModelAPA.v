(** Model of schedcat/mapping/apa.py: EDF partitioning and C=D semi-partitioning
    heuristics that respect processor affinities.

    Simplifications: densities are exact rationals; split_callback is not modelled
    (it only observes); min_chunk_size is an integer.  A Python set of tasks is a list; the
    order in which it is iterated is a parameter [iter] of the heuristics, for which the
    theorems only assume that it permutes the set.  A set of cores is a list without
    further restriction, iterated from its head.  Definitions only. *)
From Coq Require Import ZArith QArith List Bool Arith.
From Verif Require Import Base ModelTasks ModelNative ModelQPA.
Import ListNotations.
Open Scope Z_scope.

(** SporadicTask (tasks.py:15-26) with the attribute affinity (apa.py:82, 88) *)
Record atask := ATask { a_id : Z; a_cost : Z; a_period : Z; a_deadline : Z; a_aff : list nat }.

(** the set operations [remove] and [in] compare objects (apa.py:173, 186, 225, 235);
    tasks with equal attributes are interchangeable *)
Definition atask_eqb (a b : atask) : bool :=
  (a_id a =? a_id b) && (a_cost a =? a_cost b) && (a_period a =? a_period b) && (a_deadline a =? a_deadline b) &&
  (if list_eq_dec Nat.eq_dec (a_aff a) (a_aff b) then true else false).

(** unassigned.remove(t) (apa.py:173, 186, 225, 235) *)
Fixpoint remove_task (t : atask) (l : list atask) : list atask :=
  match l with [] => [] | u :: r => if atask_eqb u t then r else u :: remove_task t r end.

(** Results: a value, a loop of the native code that has not ended yet, or an exception
    (the asserts of apa.py:121, 139, 233 or a KeyError of a dictionary, apa.py:79, 148, 220) *)
Inductive res (A : Type) := Ok (a : A) | NoFuel | Raise.
Arguments Ok {A}. Arguments NoFuel {A}. Arguments Raise {A}.

(** sequencing of statements that may raise (apa.py, throughout; e.g. 171-189) *)
Definition bind {A B} (x : res A) (f : A -> res B) : res B :=
  match x with Ok a => f a | NoFuel => NoFuel | Raise => Raise end.
(** notation for [bind] (apa.py, throughout; e.g. 171-189) *)
Notation "'do' x <- a ; b" := (bind a (fun x => b)) (at level 200, x pattern, a at level 100, b at level 200).

(** a call of a native function (apa.py:67, 71) *)
Definition native_call {A} (x : option A) : res A := match x with Some a => Ok a | None => NoFuel end.

(** assignments: defaultdict(TaskSystem) (apa.py:160, 206), core -> tasks in order of assignment *)
Definition mapping := list (nat * list atask).

(** assignments[core] (apa.py:98, 117, 131, 217): empty by default *)
Fixpoint lookup (core : nat) (m : mapping) : list atask :=
  match m with [] => [] | (c, l) :: r => if Nat.eqb c core then l else lookup core r end.

(** assignments[core].append(t) (apa.py:107, 123, 141, 164, 210, 222, 237) *)
Fixpoint append (core : nat) (t : atask) (m : mapping) : mapping :=
  match m with
  | [] => [(core, [t])]
  | (c, l) :: r => if Nat.eqb c core then (c, l ++ [t]) :: r else (c, l) :: append core t r
  end.

(** the attributes that TaskSystem.density (tasks.py:200-201) reads *)
Definition core_task (t : atask) : task := Task (a_cost t) (a_period t) (a_deadline t).
(** partition.density() (apa.py:64, 102, 115) *)
Definition part_density (l : list atask) : Q := ts_density (map core_task l).

(** get_native_taskset (sched/__init__.py:10-24) without suspensions and priority points *)
Definition native_tasks (l : list atask) : ntaskset :=
  fold_left (fun ns t => add_task ns (a_cost t) (a_period t) (a_deadline t)) l [].

(** qpa_it_fits (apa.py:63-67) *)
Definition qpa_it_fits (fuel : nat) (partition : list atask) : res bool :=
  if Qle_bool (part_density partition) 1 then Ok true
  else native_call (qpa_is_schedulable fuel (native_tasks partition)).

(** qpa_split_off_chunk (apa.py:69-73) *)
Definition qpa_split_off_chunk (fuel : nat) (partition : list atask) (t : atask) : res Z :=
  native_call (get_max_C_equal_D_cost fuel (native_tasks partition) (a_cost t) (a_period t)).

(** sorted(tasks, key=...) (apa.py:79-82): stable and ascending; [naff] is the length of the
    affinity considered *)
Definition harder (naff : atask -> nat) (a b : atask) : bool :=
  Nat.ltb (naff a) (naff b) ||
  (Nat.eqb (naff a) (naff b) && Qle_bool (1 - density (core_task a)) (1 - density (core_task b))).
(** sorted(tasks, key=...) (apa.py:79-82), one insertion *)
Fixpoint insert_harder (naff : atask -> nat) (t : atask) (l : list atask) : list atask :=  (* apa.py:79-82, a step of the sort *)
  match l with [] => [t] | u :: r => if harder naff t u then t :: l else u :: insert_harder naff t r end.
(** sorted(tasks, key=...) (apa.py:79-82) *)
Definition sorted_by_decreasing_difficulty (naff : atask -> nat) (l : list atask) : list atask :=  (* apa.py:75-82 *)
  fold_right (insert_harder naff) [] l.

(** split_task_C_equal_D (apa.py:84-91); the first piece has no affinity attribute, here
    the empty list *)
Definition split_task_C_equal_D (t : atask) (wcet_part_one : Z) : atask * atask :=
  (ATask (a_id t) wcet_part_one (a_period t) wcet_part_one [],
   ATask (a_id t) (a_cost t - wcet_part_one) (a_period t) (a_deadline t - wcet_part_one) (a_aff t)).

(** the loop of try_edf_assign_task_worst_fit (apa.py:97-104) *)
Fixpoint wf_candidates (fuel : nat) (m : mapping) (t : atask) (cores : list nat) : res (list (Q * nat)) :=
  match cores with
  | [] => Ok []
  | core :: r =>
    let ts := lookup core m ++ [t] in
    do fits <- qpa_it_fits fuel ts;
    do cs <- wf_candidates fuel m t r;
    Ok (if fits then (part_density ts, core) :: cs else cs)
  end.

(** min of a list of pairs (apa.py:106) *)
Definition pair_le (a b : Q * nat) : bool :=
  if Qle_bool (fst a) (fst b) then (if Qle_bool (fst b) (fst a) then Nat.leb (snd a) (snd b) else true) else false.
(** min of a list of pairs (apa.py:106) *)
Definition min_pair (x : Q * nat) (l : list (Q * nat)) : Q * nat :=  (* apa.py:106 *)
  fold_left (fun best y => if pair_le best y then best else y) l x.

(** try_edf_assign_task_worst_fit (apa.py:93-111): the new assignments, or None for False *)
Definition try_assign_worst_fit (fuel : nat) (m : mapping) (t : atask) : res (option mapping) :=
  do cs <- wf_candidates fuel m t (a_aff t);
  match cs with
  | [] => Ok None
  | x :: r => Ok (Some (append (snd (min_pair x r)) t m))
  end.

(** lines 119-124 and 135-142: split off a chunk of at most [wcet] on a core.
    The outer option is None if no chunk of this size may be split off. *)
Definition split_on (m : mapping) (t : atask) (threshold : Z) (core : nat) (wcet : Z) : res (option (mapping * atask)) :=
  if negb (wcet =? 0) && (threshold <=? wcet) then
    let wcet := Z.min wcet (a_cost t - threshold) in
    if threshold <=? wcet then
      let (t1, t2) := split_task_C_equal_D t wcet in Ok (Some (append core t1 m, t2))
    else Raise
  else Ok None.

(** the loop of try_edf_split_task_worst_fit (apa.py:114-125) *)
Fixpoint split_cores (fuel : nat) (m : mapping) (t : atask) (threshold : Z) (cores : list nat) : res (option (mapping * atask)) :=
  match cores with
  | [] => Ok None
  | core :: r =>
    do wcet <- qpa_split_off_chunk fuel (lookup core m) t;
    do s <- split_on m t threshold core wcet;
    match s with Some p => Ok (Some p) | None => split_cores fuel m t threshold r end
  end.

(** sorted(t.affinity, key=...) (apa.py:114-115): stable and ascending *)
Fixpoint insert_core (m : mapping) (c : nat) (l : list nat) : list nat :=
  match l with
  | [] => [c]
  | d :: r => if Qle_bool (part_density (lookup c m)) (part_density (lookup d m)) then c :: l else d :: insert_core m c r
  end.

(** try_edf_split_task_worst_fit (apa.py:113-125) *)
Definition try_split_worst_fit (fuel : nat) (m : mapping) (t : atask) (threshold : Z) : res (option (mapping * atask)) :=
  split_cores fuel m t threshold (fold_right (insert_core m) [] (a_aff t)).

(** the loop of try_edf_split_task_max_chunk_fit (apa.py:130-132); the core of the initial
    pair (0, -1) is None *)
Fixpoint max_chunk (fuel : nat) (m : mapping) (t : atask) (best : Z * option nat) (cores : list nat) : res (Z * option nat) :=
  match cores with
  | [] => Ok best
  | c :: r =>
    do w <- qpa_split_off_chunk fuel (lookup c m) t;
    let better := (fst best <? w) || ((fst best =? w) && (match snd best with None => true | Some b => Nat.ltb b c end)) in
    max_chunk fuel m t (if better then (w, Some c) else best) r
  end.

(** try_edf_split_task_max_chunk_fit (apa.py:127-144) *)
Definition try_split_max_chunk (fuel : nat) (m : mapping) (t : atask) (threshold : Z) : res (option (mapping * atask)) :=
  do best <- max_chunk fuel m t (0, None) (a_aff t);
  match best with
  | (wcet, Some core) => split_on m t threshold core wcet
  | (_, None) => Ok None
  end.

Section Heuristics.
  (** iteration order of the set unassigned (apa.py:170, 220), which may differ each time *)
  Variable iter : nat -> list atask -> list atask.
  (** fuel of the native loops *)
  Variable fuel : nat.

  (** the for loop of edf_worst_fit_decreasing_difficulty (apa.py:170-189): try_again,
      unassigned, assignments *)
  Fixpoint wfd_round (with_splits max_chunk_split : bool) (min_chunk_size : Z) (l : list atask)
                     (un : list atask) (m : mapping) : res (bool * list atask * mapping) :=
    match l with
    | [] => Ok (false, un, m)
    | t :: r =>
      do placed <- try_assign_worst_fit fuel m t;
      match placed with
      | Some m' => wfd_round with_splits max_chunk_split min_chunk_size r (remove_task t un) m'
      | None =>
        if with_splits && (2 * min_chunk_size <=? a_cost t) then
          do s <- (if max_chunk_split then try_split_max_chunk fuel m t min_chunk_size
                   else try_split_worst_fit fuel m t min_chunk_size);
          match s with
          | Some (m', t2) => Ok (true, t2 :: remove_task t un, m')
          | None => wfd_round with_splits max_chunk_split min_chunk_size r un m
          end
        else wfd_round with_splits max_chunk_split min_chunk_size r un m
      end
    end.

  (** the while loop (apa.py:168-189); at most [rounds] rounds *)
  Fixpoint wfd_loop (with_splits max_chunk_split : bool) (min_chunk_size : Z) (rounds : nat)
                    (un : list atask) (m : mapping) : res (list atask * mapping) :=
    match un with
    | [] => Ok (un, m)
    | _ :: _ =>
      match rounds with
      | O => NoFuel
      | S k =>
        do r <- wfd_round with_splits max_chunk_split min_chunk_size
                  (sorted_by_decreasing_difficulty (fun t => length (a_aff t)) (iter k un)) un m;
        let '(try_again, un', m') := r in
        if try_again then wfd_loop with_splits max_chunk_split min_chunk_size k un' m' else Ok (un', m')
      end
    end.

  (** edf_worst_fit_decreasing_difficulty (apa.py:150-191); no pre-assignment is [].
      The dictionary affinity (apa.py:156-158) is never used. *)
  Definition wfd (rounds : nat) (tasks : list atask) (with_splits : bool) (pre_assigned : mapping)
                 (min_chunk_size : Z) (max_chunk_split : bool) : res (list atask * mapping) :=
    wfd_loop with_splits max_chunk_split min_chunk_size rounds tasks pre_assigned.

  (** the dictionary affinity of the first-fit heuristic (apa.py:212-214): task id -> cores;
      the last task with an id wins *)
  Definition affinities := list (Z * list nat).
  Fixpoint get_aff (i : Z) (a : affinities) : res (list nat) :=  (* affinity[t.id], apa.py:79, 148, 220 *)
    match a with [] => Raise | (j, l) :: r => if j =? i then Ok l else get_aff i r end.
  Definition init_aff (tasks : list atask) : affinities := rev (map (fun t => (a_id t, a_aff t)) tasks).  (* apa.py:212-214 *)

  (** affinity[t.id].discard(core) (apa.py:148) *)
  Fixpoint discard (i : Z) (core : nat) (a : affinities) : affinities :=
    match a with
    | [] => []
    | (j, l) :: r => if j =? i then (j, filter (fun c => negb (Nat.eqb c core)) l) :: r else (j, l) :: discard i core r
    end.
  (** remove_core_from_affinities (apa.py:146-148); KeyError for an unknown id *)
  Fixpoint remove_core (un : list atask) (a : affinities) (core : nat) : res affinities :=
    match un with
    | [] => Ok a
    | t :: r => do _ <- get_aff (a_id t) a; remove_core r (discard (a_id t) core a) core
    end.

  (** [t for t in unassigned if core in affinity[t.id]] (apa.py:220) *)
  Fixpoint eligible (core : nat) (a : affinities) (un : list atask) : res (list atask) :=
    match un with
    | [] => Ok []
    | t :: r =>
      do l <- get_aff (a_id t) a;
      do ts <- eligible core a r;
      Ok (if existsb (Nat.eqb core) l then t :: ts else ts)
    end.
  (** len(effective_affinity[t.id]) (apa.py:79) *)
  Definition eff_len (a : affinities) (t : atask) : nat := match get_aff (a_id t) a with Ok l => length l | _ => 0%nat end.

  (** the loop over the candidates of one core (apa.py:219-243) *)
  Fixpoint ffd_core (with_splits : bool) (min_chunk_size : Z) (core : nat) (l : list atask)
                    (un : list atask) (m : mapping) : res (list atask * mapping) :=
    match l with
    | [] => Ok (un, m)
    | t :: r =>
      do fits <- qpa_it_fits fuel (lookup core m ++ [t]);
      if fits then ffd_core with_splits min_chunk_size core r (remove_task t un) (append core t m)
      else if with_splits && (min_chunk_size * 2 <=? a_cost t) then
        do wcet <- qpa_split_off_chunk fuel (lookup core m) t;
        do s <- split_on m t min_chunk_size core wcet;
        match s with
        | Some (m', t2) => Ok (t2 :: remove_task t un, m')
        | None => Ok (un, m)
        end
      else ffd_core with_splits min_chunk_size core r un m
    end.

  (** the loop over the cores (apa.py:216-246) *)
  Fixpoint ffd_loop (with_splits : bool) (min_chunk_size : Z) (cores : list nat) (a : affinities)
                    (un : list atask) (m : mapping) : res (list atask * mapping) :=
    match cores with
    | [] => Ok (un, m)
    | core :: r =>
      do el <- eligible core a (iter (length r) un);
      do p <- ffd_core with_splits min_chunk_size core (sorted_by_decreasing_difficulty (eff_len a) el) un m;
      let (un', m') := (p : list atask * mapping) in
      do a' <- remove_core un' a core;
      ffd_loop with_splits min_chunk_size r a' un' m'
    end.

  (** edf_first_fit_decreasing_difficulty (apa.py:193-248); [all_cores] None: the union of
      the affinities (apa.py:199-202), with duplicates removed *)
  Definition ffd (tasks : list atask) (all_cores : option (list nat)) (with_splits : bool)
                 (pre_assigned : mapping) (min_chunk_size : Z) : res (list atask * mapping) :=
    let cores := match all_cores with Some l => l | None => nodup Nat.eq_dec (concat (map a_aff tasks)) end in
    ffd_loop with_splits min_chunk_size cores (init_aff tasks) tasks pre_assigned.

  (** count_slices (apa.py:250-251) *)
  Definition count_slices (m : mapping) : nat := fold_left (fun n p => (n + length (snd p))%nat) m 0%nat.

  (** double_wfd_split (apa.py:253-272) *)
  Definition double_wfd_split (rounds : nat) (tasks : list atask) (with_splits : bool) (pre_assigned : mapping)
                              (min_chunk_size : Z) : res (list atask * mapping) :=
    do r1 <- wfd rounds tasks with_splits pre_assigned min_chunk_size false;
    if negb with_splits then Ok r1
    else
      do r2 <- wfd rounds tasks with_splits pre_assigned min_chunk_size true;
      let (un1, m1) := (r1 : list atask * mapping) in
      let (un2, m2) := (r2 : list atask * mapping) in
      if Nat.ltb (length un1) (length un2) then Ok r1
      else if Nat.eqb (length un1) (length un2) then
        (if Nat.ltb (count_slices m1) (count_slices m2) then Ok r1 else Ok r2)
      else Ok r2.

  (** the four heuristics edf_assign_{wfd,ffd}_{wfd,ffd}_split (apa.py:274-372), which differ
      only in the heuristic [h1] used first and [h2] used for the rest: [first_wfd],
      [second_wfd].  A call without splits; *)
  Definition plain (first_wfd : bool) (rounds : nat) (tasks : list atask) (pre : mapping) : res (list atask * mapping) :=  (* apa.py:280-290, 305-315, 330-340, 355-365 *)
    if first_wfd then double_wfd_split rounds tasks false pre 0 else ffd tasks None false pre 0.
  (** a call with splits; *)
  Definition splitting (second_wfd : bool) (rounds : nat) (tasks : list atask) (pre : mapping) (min_chunk_size : Z) : res (list atask * mapping) :=  (* apa.py:292-295, 317-320, 342-345, 367-370 *)
    if second_wfd then double_wfd_split rounds tasks true pre min_chunk_size else ffd tasks None true pre min_chunk_size.
  (** and the whole.  The second call for the too small tasks is first-fit only in
      edf_assign_ffd_ffd_split (apa.py:357; 282, 307 and 332 are worst-fit). *)
  Definition edf_assign_split (first_wfd second_wfd : bool) (rounds : nat) (taskset : list atask)
                              (min_chunk_size : Z) (pre_assign_small : bool) : res (list atask * mapping) :=
    do p <- (if negb (min_chunk_size =? 0) && pre_assign_small then
               let too_small := filter (fun t => a_cost t <? min_chunk_size * 2) taskset in
               let rest := filter (fun t => min_chunk_size * 2 <=? a_cost t) taskset in
               match too_small with
               | [] => plain first_wfd rounds taskset []
               | _ :: _ =>
                 do p1 <- plain first_wfd rounds too_small [];
                 let (un, m) := (p1 : list atask * mapping) in
                 plain (first_wfd || second_wfd) rounds (un ++ rest) m
               end
             else plain first_wfd rounds taskset []);
    let (un, m) := (p : list atask * mapping) in
    match un with
    | [] => Ok (un, m)
    | _ :: _ => splitting second_wfd rounds un m min_chunk_size
    end.
End Heuristics.

(** meta_preassign_failures (apa.py:374-401): [pa] and [reg] are the two heuristics, taking the
    tasks and a pre-assignment; [rounds] bounds the while loop *)
Fixpoint paf_loop (rounds : nat) (pa reg : list atask -> mapping -> res (list atask * mapping))
                  (all : list atask) (ids : list Z) : res (list atask * mapping) :=
  match rounds with
  | O => NoFuel
  | S k =>
    let to_pa := filter (fun t => existsb (Z.eqb (a_id t)) ids) all in
    let rest := filter (fun t => negb (existsb (Z.eqb (a_id t)) ids)) all in
    do p <- pa to_pa [];
    let (un, m) := (p : list atask * mapping) in
    do q <- reg (rest ++ un) m;
    let (un2, m2) := (q : list atask * mapping) in
    match un2, un with
    | [], _ => Ok (un2, m2)
    | _, _ :: _ => Ok (un2, m2)
    | _ :: _, [] => paf_loop k pa reg all (map a_id un2 ++ ids)
    end
  end.
(** meta_preassign_failures (apa.py:374-401) *)
Definition meta_preassign_failures (rounds : nat) (pa reg : list atask -> mapping -> res (list atask * mapping))
                                   (taskset : list atask) : res (list atask * mapping) :=  (* apa.py:374-401 *)
  do p <- reg taskset [];
  let (un, m) := (p : list atask * mapping) in
  match un with [] => Ok (un, m) | _ :: _ => paf_loop rounds pa reg taskset (map a_id un) end.

(** SporadicTask.period_transform (tasks.py:99-106) with want_integer; [k] subjobs *)
Definition period_transform (k : Z) (t : atask) : atask :=
  ATask (a_id t) (cdiv (a_cost t) k) (a_period t / k) (a_deadline t / k) (a_aff t).

(** is_feasible_pt (apa.py:403-404) *)
Definition is_feasible_pt (t : atask) (pt : Z) : bool := cdiv (a_cost t) pt <=? a_period t / pt.

(** the loops of transform over the candidate periods (apa.py:436-441, 444-449): the task after
    the first that works, or None.  The candidates are integers here. *)
Fixpoint try_periods (t : atask) (options : list Z) : option atask :=
  match options with
  | [] => None
  | p :: r => let pt := a_period t / p in
    if (a_period t mod p =? 0) && is_feasible_pt t pt then Some (period_transform pt t) else try_periods t r
  end.

(** transform (apa.py:428-450) *)
Definition transform_task (candidates : list Z) (threshold limit : Z) (reduce_all : bool) (failed : list Z) (t : atask) : atask :=
  if (limit <=? a_period t) && (reduce_all || existsb (Z.eqb (a_id t)) failed) then
    match try_periods t (rev (filter (fun p => (p <? limit) && (threshold <=? p)) candidates)) with
    | Some t' => t'
    | None => match try_periods t (filter (fun p => limit <=? p) candidates) with Some t' => t' | None => t end
    end
  else t.

(** the loop of meta_reduce_periods (apa.py:452-461); [failed] is not used with reduce_all *)
Fixpoint rp_loop (heuristic : list atask -> res (list atask * mapping)) (taskset : list atask) (candidates : list Z) (threshold : Z)
                 (reduce_all : bool) (limits : list Z) (failed : list Z) (last : list atask * mapping) : res (list atask * mapping) :=
  match limits with
  | [] => Ok last
  | limit :: r =>
    do p <- heuristic (map (transform_task candidates threshold limit reduce_all failed) taskset);
    let (un, m) := (p : list atask * mapping) in
    match un with
    | [] => Ok (un, m)
    | _ :: _ => rp_loop heuristic taskset candidates threshold reduce_all r (map a_id un ++ failed) (un, m)
    end
  end.

(** meta_reduce_periods (apa.py:406-461) for given candidate periods *)
Definition meta_reduce_periods (heuristic : list atask -> res (list atask * mapping)) (taskset : list atask) (candidates : list Z)
                               (threshold : Z) (reduce_all : bool) : res (list atask * mapping) :=
  do p <- heuristic taskset;
  let (un, m) := (p : list atask * mapping) in
  match un with
  | [] => Ok (un, m)
  | _ :: _ => rp_loop heuristic taskset candidates threshold reduce_all (rev (filter (fun p => threshold <=? p) candidates)) (map a_id un) (un, m)
  end.
