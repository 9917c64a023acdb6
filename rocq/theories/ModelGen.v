(** Model of the task set generators: schedcat/generator/tasks.py,
    generator/tasksets.py and generator/generator_emstada.py.  Definitions only.
    Simplifications: floats are exact rationals; random numbers are parameters,
    so that every theorem covers every run.  Python's random.random() yields a
    number r in [0, 1), random.uniform(a, b) is a + (b - a) * r (CPython's
    definition), random.randint(a, b) picks an integer by an index computed from
    r; exponentials, logarithms and roots are arbitrary functions. *)
From Coq Require Import ZArith QArith Qround List Bool String.
From Verif Require Import Base ModelTasks ModelOverheads.
Import ListNotations.
Open Scope Q_scope.

(** math.trunc (tasks.py:3,101,129): rounds toward zero *)
Definition qtrunc (q : Q) : Z := Z.quot (Qnum q) (Zpos (Qden q)).

(** max and min of two numbers as Python evaluates them (tasks.py:32-33,49):
    the first argument unless the second is strictly larger (smaller) *)
Definition pymax (a b : Q) : Q := if Qle_bool b a then a else b.
(** see [pymax] (tasks.py:33,49) *)
Definition pymin (a b : Q) : Q := if Qle_bool a b then a else b.

(** ** Distributions *)

(** A distribution (the functions _draw in tasks.py:9-87): from the results of
    random.random() still to come to a value; None: the list was too short *)
Definition dist := list Q -> option Q.

(** random.uniform (CPython's random.py, called in tasks.py:18, tasksets.py:59) *)
Definition random_uniform (a b r : Q) : Q := a + (b - a) * r.
(** random.randint, as a + floor(r * (b - a + 1)) (called in tasks.py:12) *)
Definition random_randint (a b : Z) (r : Q) : Z := (a + Qfloor (r * inject_Z (b - a + 1)))%Z.

(** uniform_int (tasks.py:9-13) *)
Definition uniform_int (minval maxval : Z) : dist := fun rs =>
  match rs with r :: _ => Some (inject_Z (random_randint minval maxval r)) | [] => None end.

(** uniform (tasks.py:15-19) *)
Definition uniform (minval maxval : Q) : dist := fun rs =>
  match rs with r :: _ => Some (random_uniform minval maxval r) | [] => None end.

(** log_uniform_int (tasks.py:27-35).  [explog minval maxval r] is what
    log_uniform (tasks.py:21-25) computes with exp and log. *)
Definition log_uniform_int (explog : Q -> Q -> Q -> Q) (minval maxval : Z) : dist := fun rs =>
  match rs with
  | r :: _ =>
      let val := qtrunc (explog (inject_Z minval) (inject_Z (maxval + 1)) r) in
      let val := Z.max minval val in
      Some (inject_Z (Z.min maxval val))
  | [] => None
  end.

(** uniform_choice (tasks.py:37-42); None also for the IndexError or
    ValueError of an empty list *)
Definition uniform_choice (choices : list Q) : dist := fun rs =>
  match rs with
  | r :: _ => nth_error choices (Z.to_nat (random_randint 0 (Z.of_nat (List.length choices) - 1) r))
  | [] => None
  end.

(** truncate (tasks.py:44-50) *)
Definition truncate (minval maxval : Q) (d : dist) : dist := fun rs =>
  match d rs with Some val => Some (pymin maxval (pymax minval val)) | None => None end.

(** redraw (tasks.py:52-62), for distributions that use one random number per
    draw.  None: all draws so far were out of range. *)
Fixpoint redraw_loop (minval maxval : Q) (d : dist) (rs : list Q) : option Q :=
  match rs with
  | [] => None
  | r :: rest =>
      match d [r] with
      | Some val => if Qle_bool minval val && Qle_bool val maxval then Some val else redraw_loop minval maxval d rest
      | None => None
      end
  end.
(** redraw as a limiter (tasks.py:52-62) *)
Definition redraw (minval maxval : Q) (d : dist) : dist := redraw_loop minval maxval d.

(** exponential (tasks.py:64-72).  [expo mean r] is random.expovariate(1.0 / mean). *)
Definition exponential (expo : Q -> Q -> Q) (minval maxval mean : Q) (limiter : Q -> Q -> dist -> dist) : dist :=
  limiter minval maxval (fun rs => match rs with r :: _ => Some (expo mean r) | [] => None end).

(** the loop of multimodal (tasks.py:82-87); None: the assertion *)
Fixpoint pick_mode (wds : list (dist * Q)) (wsum x : Q) : option dist :=
  match wds with
  | [] => None
  | (d, w) :: r => let wsum := wsum + w in if Qle_bool x wsum then Some d else pick_mode r wsum x
  end.

(** multimodal (tasks.py:74-88) *)
Definition multimodal (wds : list (dist * Q)) : dist := fun rs =>
  match rs with
  | r :: rest =>
      let total_weight := qsum (map snd wds) in
      match pick_mode wds 0 (random_uniform 0 total_weight r) with Some d => d rest | None => None end
  | [] => None
  end.

(** ** TaskGenerator *)

(** What one iteration draws: period, utilization and the deadline function
    with its random choice fixed (tasks.py:113-116) *)
Record draw := Draw { d_period : Q; d_util : Q; d_deadline : Q -> Q -> Q }.

(** max(1, int(time_conversion(x))) (tasks.py:118-120) *)
Definition scaled (time_conversion : Q -> Z) (x : Q) : Z := Z.max 1 (time_conversion x).

(** the condition of the while loop (tasks.py:111-112) *)
Definition proceed (max_tasks : option Z) (max_util : option Q) (count : nat) (usum : Q) : bool :=
  (match max_tasks with None => true | Some n => (Z.of_nat count <? n)%Z end) &&
  (match max_util with None => true | Some u => negb (Qle_bool u usum) end).

(** TaskGenerator.tasks (tasks.py:101-131) and make_task_set (133-134).  The
    iterations use [draws 0], [draws 1], ...  None: [fuel] iterations were not
    enough. *)
Fixpoint tasks (fuel : nat) (max_tasks : option Z) (max_util : option Q) (squeeze : bool) (time_conversion : Q -> Z)
    (draws : nat -> draw) (count : nat) (usum : Q) : option (list task) :=
  match fuel with
  | O => None
  | S fuel =>
      if proceed max_tasks max_util count usum then
        let d := draws count in
        let period := d_period d in
        let cost := period * d_util d in
        let deadline := d_deadline d cost period in
        let period := scaled time_conversion period in
        let cost := scaled time_conversion cost in
        let deadline := scaled time_conversion deadline in
        let util := zdivq cost period in
        let count := S count in
        let usum := usum + util in
        let continue := fun cost => option_map (cons (Task cost period deadline))
                          (tasks fuel max_tasks max_util squeeze time_conversion draws count usum) in
        match max_util with
        | Some u =>
            if negb (Qeq_bool u 0) && negb (Qle_bool usum u) then
              if squeeze then
                let util := util - (usum - u) in
                continue (qtrunc (inject_Z period * util))
              else Some []
            else continue cost
        | None => continue cost
        end
      else Some []
  end.

(** a call with its initial state (tasks.py:109-110,133-134) *)
Definition make_task_set (fuel : nat) (max_tasks : option Z) (max_util : option Q) (squeeze : bool) (time_conversion : Q -> Z)
    (draws : nat -> draw) : option (list task) := tasks fuel max_tasks max_util squeeze time_conversion draws 0 0.

(** ** tasksets.py *)

(** the default deadline: the period (tasks.py:94) *)
Definition implicit_deadlines : Q -> Q -> Q := fun _ y => y.

(** uniform_slack (tasksets.py:48-60) with its random number [r] *)
Definition uniform_slack (min_slack_ratio max_slack_ratio r : Q) : Q -> Q -> Q := fun cost period =>
  let slack := period - cost in
  let earliest := slack * min_slack_ratio in
  let latest := slack * max_slack_ratio in
  cost + random_uniform earliest latest r.

(** NAMED_PERIODS (tasksets.py:19-28) *)
Definition NAMED_PERIODS (explog : Q -> Q -> Q -> Q) : list (string * dist) :=
  [("uni-short"%string, uniform_int 3 33); ("uni-moderate"%string, uniform_int 10 100); ("uni-long"%string, uniform_int 50 250);
   ("log-uni-short"%string, log_uniform_int explog 3 33); ("log-uni-moderate"%string, log_uniform_int explog 10 100);
   ("log-uni-long"%string, log_uniform_int explog 50 250)].

(** NAMED_UTILIZATIONS (tasksets.py:30-46) *)
Definition NAMED_UTILIZATIONS (expo : Q -> Q -> Q) : list (string * dist) :=
  [("uni-light"%string, uniform (1 # 1000) (1 # 10)); ("uni-medium"%string, uniform (1 # 10) (4 # 10)); ("uni-heavy"%string, uniform (5 # 10) (9 # 10));
   ("exp-light"%string, exponential expo 0 1 (10 # 100) redraw); ("exp-medium"%string, exponential expo 0 1 (25 # 100) redraw);
   ("exp-heavy"%string, exponential expo 0 1 (50 # 100) redraw);
   ("bimo-light"%string, multimodal [(uniform (1 # 1000) (5 # 10), 8); (uniform (5 # 10) (9 # 10), 1)]);
   ("bimo-medium"%string, multimodal [(uniform (1 # 1000) (5 # 10), 6); (uniform (5 # 10) (9 # 10), 3)]);
   ("bimo-heavy"%string, multimodal [(uniform (1 # 1000) (5 # 10), 4); (uniform (5 # 10) (9 # 10), 5)])].

(** NAMED_DEADLINES with mkgen (tasksets.py:62-73) *)
Definition NAMED_DEADLINES : list (string * (Q -> Q -> Q -> Q)) :=
  [("implicit"%string, fun _ => implicit_deadlines); ("uni-constrained"%string, uniform_slack 0 1); ("uni-arbitrary"%string, uniform_slack 0 2)].

(** ** generator_emstada.py *)

Section FixedSum.
Variables (n : nat) (u tiny huge : Q).

(** k (generator_emstada.py:77) *)
Definition rfs_k : Z := Qfloor u.
(** s1 and s2 (generator_emstada.py:78-82): both steps are -1 for n >= 1 *)
Definition rfs_s1 (i : nat) : Q := u - inject_Z (rfs_k - Z.of_nat i).
(** see [rfs_s1] (generator_emstada.py:82) *)
Definition rfs_s2 (i : nat) : Q := inject_Z (rfs_k + Z.of_nat n - Z.of_nat i) - u.

(** tmp1 and tmp2 (generator_emstada.py:92-93) for row i and column c, given
    the previous row of w *)
Definition rfs_tmp1 (prev : nat -> Q) (i c : nat) : Q := prev (S c) * rfs_s1 c / inject_Z (Z.of_nat i).
(** see [rfs_tmp1] (generator_emstada.py:93) *)
Definition rfs_tmp2 (prev : nat -> Q) (i c : nat) : Q := prev c * rfs_s2 (n - i + c) / inject_Z (Z.of_nat i).

(** w (generator_emstada.py:87-88,94): row r (i = r + 1), columns 1..i are set *)
Fixpoint rfs_w (r : nat) : nat -> Q :=
  match r with
  | O => fun c => if Nat.eqb c 1 then huge else 0
  | S r' => fun c => if (1 <=? c)%nat && (c <=? S r)%nat
                     then rfs_tmp1 (rfs_w r') (S r) (c - 1) + rfs_tmp2 (rfs_w r') (S r) (c - 1) else 0
  end.

(** t (generator_emstada.py:89,95-97): row i - 2, columns 0..i-1 are set *)
Definition rfs_t (i c : nat) : Q :=
  if (c <? i)%nat then
    let prev := rfs_w (i - 2) in
    let tmp1 := rfs_tmp1 prev i c in
    let tmp2 := rfs_tmp2 prev i c in
    let tmp3 := rfs_w (i - 1) (S c) + tiny in
    if negb (Qle_bool (rfs_s2 (n - i + c)) (rfs_s1 c)) then tmp2 / tmp3 else 1 - tmp1 / tmp3
  else 0.

(** t[i-1,j-1] (generator_emstada.py:109): a negative index counts from the
    end, an index beyond the n columns is an IndexError *)
Definition rfs_lookup (i : nat) (j : Z) : option Q :=
  let c := (j - 1)%Z in
  if (0 <=? c)%Z && (c <? Z.of_nat n)%Z then Some (rfs_t (S i) (Z.to_nat c))
  else if (- Z.of_nat n <=? c)%Z && (c <? 0)%Z then Some (rfs_t (S i) (Z.to_nat (c + Z.of_nat n)))
  else None.

(** the loop over the dimensions (generator_emstada.py:108-117).  [rt k] and
    [sx k] are the uniform number and the root of line 110 in step k. *)
Fixpoint rfs_loop (rt sx : nat -> Q) (i : nat) (s : Q) (j : Z) (sm pr : Q) : option (list Q) :=
  match i with
  | O => Some [sm + pr * s]
  | S i' =>
      match rfs_lookup i j with
      | None => None
      | Some t =>
          let e := Qle_bool (rt (n - i - 1)%nat) t in
          let eq := if e then 1 else 0 in
          let x := sx (n - i - 1)%nat in
          let sm := sm + (1 - x) * pr * s / inject_Z (Z.of_nat i + 1) in
          let pr := x * pr in
          option_map (cons (sm + pr * eq)) (rfs_loop rt sx i' (s - eq) (if e then j - 1 else j)%Z sm pr)
      end
  end.
End FixedSum.

(** StaffordRandFixedSum with nsets = 1 (generator_emstada.py:71-124); [perm] is
    the random permutation of line 122.  None: IndexError. *)
Definition rand_fixed_sum (n : nat) (u tiny huge : Q) (rt sx : nat -> Q) (perm : list nat) : option (list Q) :=
  match n with
  | O => None
  | 1%nat => Some [u]
  | _ => match rfs_loop n u tiny huge rt sx (n - 1) u (rfs_k u + 1) 0 1 with
         | None => None
         | Some x => Some (map (fun i => nth i x 0) perm)
         end
  end.

(** numpy.floor(periods / gran) * gran (generator_emstada.py:143) *)
Definition round_period (gran p : Q) : Q := inject_Z (Qfloor (p / gran)) * gran.

(** numpy.maximum(periods, max(period_min, period_granularity)) (generator_emstada.py:167) *)
Definition clamp_period (period_min gran p : Q) : Q := pymax p (pymax period_min gran).

(** quantize_params on the task objects when the result is ignored
    (generator_emstada.py:175-176, jlfp.py:88-99): the loop stops at the first
    task that does not fit, which has been changed already *)
Fixpoint quantize_inplace (ts : list otask) : list otask :=
  match ts with
  | [] => []
  | t :: r =>
      let cost := inject_Z (Qceiling (o_cost t)) in
      let period := inject_Z (Qfloor (o_period t)) in
      let deadline := inject_Z (Qfloor (o_deadline t)) in
      let t' := OTask cost period deadline (o_wss t) (o_early t) (o_jitter t) in
      if Qeq_bool (qmin period deadline) 0 then t' :: r
      else if negb (Qle_bool (cost / qmin period deadline) 1) then t' :: r
      else t' :: quantize_inplace r
  end.

(** SporadicTask(cost, period) without further attributes (generator_emstada.py:173) *)
Definition plain_otask (cost period : Q) : otask := OTask cost period period 0 false None.

(** gen_taskset with a period range given as a pair or by name
    (generator_emstada.py:58-63,153-177).  [x] is the result of
    StaffordRandFixedSum, [raw] the periods before rounding (lines 128-141). *)
Definition gen_taskset (period_min : Q) (granularity : option Q) (scale : Q -> Q) (want_integral : bool) (x raw : list Q) : list otask :=
  let gran := match granularity with None => period_min | Some g => g end in
  let periods := map (clamp_period period_min gran) (map (round_period gran) raw) in
  let ts := map (fun xp => plain_otask (scale (fst xp * snd xp)) (scale (snd xp))) (combine x periods) in
  if want_integral then quantize_inplace ts else ts.

(** ms2us (util/time.py:11-12), the default scale (generator_emstada.py:154) *)
Definition ms2us (ms : Q) : Q := ms * 1000.

(** NAMED_PERIODS (generator_emstada.py:58-63) *)
Definition EMSTADA_PERIODS : list (string * (Q * Q)) :=
  [("uni-short"%string, (3, 33)); ("uni-moderate"%string, (10, 100)); ("uni-long"%string, (50, 250)); ("uni-broad"%string, (1, 1000))].
