# Formal model of brandenburg/schedcat in Rocq (Coq 8.16.1)

## Layout

Each area NAME of the code has up to four files in `rocq/theories`:

| file | contents |
|---|---|
| `ModelNAME.v` | Gallina transcription of the code, function by function, each definition citing file and lines in /repo. No proofs. |
| `SpecNAME.v`  | The independent specification: job sequences, schedules, selections, graphs ... It uses at most the record types of the model (SpecAPA: `atask`), never its functions. |
| `ProofNAME.v` | Lemmas. |
| `PropNAME.v`  | The property theorems only, each closed by `exact`, with `Print Assumptions` beneath and an `Example` showing a concrete case that meets the hypotheses. |

`Base.v` holds generic lemmas (lists, sums, ceiling division).

## General modelling decisions

* Task parameters are integers (`Z`). The library accepts any Python number but
  documents and generates integers.
* Quotients that Python computes in floating point (`from __future__ import
  division`) are computed exactly: `int(floor(a / b))` is `Z.div a b`,
  `int(ceil(a / b))` is the exact integer ceiling, utilizations are `Q`.
  Rounding errors of binary64 are not modelled, except where a theorem says so.
* C++ `unsigned long`/`unsigned int` are unbounded integers; GMP types are exact anyway.
  Wrap-around is not modelled unless a theorem says so.
* Loops are structural recursion where possible. Otherwise they take explicit
  fuel and return an error value when it runs out; a termination theorem then
  gives fuel that always suffices.
* Python exceptions (assert, ZeroDivisionError, NameError...) are values of an option/result type.
* Attributes a Python task may lack (`jitter`, `blocked`, ...) are options.
* Schedules are discrete time functions. Time is `Z` or `nat`; one slot is one time unit.

## Properties: what is modelled and how it is proved

* C01 dbf: `SporadicTask.dbf`, `TaskSystem.dbf`. Spec: finite job lists sorted by arrival, separation, window. Induction on the job list; tightness by a periodic sequence.
* C02 rbf: same with arrivals only.
* C03 points of change: `count`/`dropwhile`/`takewhile` as bounded streams, k-way merge, `uniq`. Spec: t is a point iff dbf(t) <> dbf(t-1). Sortedness and membership by induction.
* C04 maxjobs: spec over arrival/completion pairs; counting argument by induction.
* C05 hyperperiod: fold of `(a // gcd) * b`; divisibility by induction.
* C06 topsum: insertion sort (stable, descending) then prefix sum; exchange argument over all sub-selections.
* C07 fixed-priority RTA: model of rta.py; spec is a discrete-time uniprocessor schedule `nat -> option job`. Busy-window argument.
* C08 exactness: least fixed point by monotone iteration; schedule argument on the synchronous sequence.
* C09 termination/sustainability: iterates increase, bounded by the deadline; monotone comparison of iterations.
* C10 refutation by a witness, and the positive theorem without jitter.
* C11 QPA: loop with measure; invariant "criterion holds above the current interval". Busy-period and Zhang-Burns bounds proved from utilization.
* C12 EDF soundness: discrete-time schedule, last idle-or-later-deadline instant argument.
* C13 infeasibility: counting slots before t.
* C14 C=D split: loop invariant "no larger budget is feasible".
* C15 GFB: comparison with the fluid schedule, strong induction on time.
* C16 BCL: first deadline miss, interference counting.
* C17 agreement of the two implementations: algebra on `Q`.
* C18 iterative tests: measure on slack vectors.
* C19 combined test: case analysis plus permutation invariance of each test (for BAR by a description of the verdict in which the position of a task does not occur, for FF-DBF by a simulation of the two runs up to equality of rationals); soundness of BAK and BAR from the busy interval before the first miss; soundness of FF-DBF from a backwards construction of overloaded intervals, carried over the changes of sigma by convexity of the fast-forward demand along the line between two test points.
* C20-C22 bin packing: folds over bins; invariants by induction over the items.
* C23 rollback bins: state machine with transactions.
* C24 RUN: pack/dual reduction on rational rates; measure = number of servers.
* C25, C26 overheads: parametric in arbitrary overhead functions.
* C27 piece-wise linear functions over Q.
* C28, C29 blocking bounds: greedy selection optimality, monotonicity.
* C30 group locks: union of sets, equivalence closure of nesting.
* C31 connected components: heap model with aliasing; refutation witness.
* C32 nesting forest traversal.
* C33 serialization: all of `serialize.py` at the level of element trees with string attributes; the XML text itself (ElementTree) is trusted. Decimal strings are the standard library's; float() is modelled on decimal integers by rounding to 53 bits, other float literals are out of scope (names in the theorems cannot be mistaken for one). Round trips by computing the shape of the written element; nested sections by induction on their size.
* C34 generators: `generator/tasks.py`, `generator/tasksets.py` (distributions, the named tables) and `generator_emstada.py` (StaffordRandFixedSum for one set, gen_periods' rounding, gen_taskset). Parametric in all random numbers; exp, log and roots are arbitrary functions; floats are exact. The loop's outcome is characterised once (ProofGen.tasks_shape), the theorems are corollaries. Fixed sum: invariant sum so far + (i+1)*sm + pr*s = u; the transition table is 0 in the first and 1 in the last admissible column, which keeps every coordinate in [0,1]. Not modelled: main, gen_tasksets, printing; the distribution (uniformity) of the draws.
* C35 CAN: fixed-point iteration; safety on an event-list model of the bus with faults; refutation by Davis et al.'s example.
* C36 simulator: `schedule_sim.h`, `schedule_sim.cpp`, `edf/sim.cpp`, `sim/edf.py`. The state holds processors, the pending jobs, the event queue and the current job of each task; ties in the priority queue are broken by an arbitrary function `pick`. Invariant of one step (ProofSim); the steps of a run define a discrete-time schedule, whose service is read off the state (ProofSimSched); the log of completions is the set of finished jobs. Times are unbounded integers, the unused histograms and the C++ template parameter for the priority are omitted; zero processors (undefined behaviour in C++) are an error value.
* C37 pfair: quantum schedules exist iff the utilization bound holds (Hall's theorem for the slots; hyperperiod counting).
* C38 GEL bounds: `gel_pl.py` and the arithmetic of `gel_pl.cpp`. Spec: global schedules by priority points (SpecTardiness). Safety by strong induction over jobs in priority order, comparing with full-cost sequences (ProofGEL, ProofGELCost); the compliance function is the maximum over K-subsets of lines, the trace of gel_pl.py:163-183 follows it (ProofTardinessExact); necessity by a synchronous periodic overload (ProofTardinessNec).
* C39 EDF response times (Guan and Yi): busy-period argument on discrete-time schedules, descent to the points of change of the demand, loop invariant over the task index, least fixed points. Only the default supply functions (a dedicated processor) are modelled.
* C40 affinity partitioning: the heuristics are sequences of two kinds of steps (place, split), which preserve a decomposition of every task into pieces and the demand criterion of every core; the native QPA test and C=D search enter by C11 and C14. Loops end because a split lowers the unassigned cost. The order in which Python iterates sets is a parameter. At run time: EDF on every core (C12), pieces released at each other's deadlines.
* C41 CAN priorities: exchange argument per level (Audsley), binary search over a monotone test. The probabilities of broster.py are not modelled.
* C42 period transformation: integer arithmetic on the demand; meta_reduce_periods for given integer candidate periods (the default candidates are floats and not modelled).
* C43 Devi-Anderson: `da.py` completely. Existence and safety of the preemptive bound are proved in full (`da_full_cost` in ProofGEL.v: lag argument with Lambda costs and Lambda - 1 utilizations; if all Lambda backlogged tasks are tardy, the invariant at that time already covers them). The bound for non-preemptive scheduling is refuted for one and for two processors.
* C44 combined response-time bounds (`edf/__init__.py: bound_response_times`, pure Python): composition of C18, C19, C43 and the necessity half of C38; refuted for deadlines beyond the period, where Baker's test accepts too much.
* C45 Bertogna's analysis (`fp/bertogna.py` completely, with `blocked` and `hp_direct_blocked`): spec `SpecGFP.v`, global FP schedules in which a ready job waits only while m jobs of more important tasks run, or in a slot charged to its blocking; a blocked slot is either charged to higher-priority direct blocking (then a more important job runs) or to the rest. Proof by induction over the task index, counting the work in the window of length response_time.
* C46 Guan's analysis (`fp/guan.py`, `fp/__init__.py`): the window is extended back to the last slot in which fewer than m more important jobs run; at most m-1 tasks carry work in. Dominance over Bertogna by comparing the interference terms.
* C47 phase-fair locks (`rw-phase-fair.cpp`, `sharedres.cpp:173-214, 561-581`): an execution is a list of requests with a read flag and the four rules of a phase-fair lock. A read waits for at most one writer and the readers running when it is issued, a write for the writers before it and one reader phase before each; the longest reader represents a phase; processors bound the number of waiting writers.
* C48 task-fair locks (`rw-task-fair.cpp`): one FIFO queue in which a request waits exactly for the earlier conflicting requests. Consecutive readers form a group whose last reader represents it; the same set of blockers is counted in both analyses. The greedy count is compared with every selection by prefix sums.
* C49 LP variables: `encode_request` on unbounded naturals, VarMapper as the list of keys in order of first lookup; linear programs are generated over structured variables and then renamed through the final mapper (lookups are stable, so this is the program the code builds). The solver (GLPK or CPLEX) is not modelled: its result is any optimal solution of the program with variables in [0,1], binaries in {0,1} (`optimum` in SpecLP). Renaming by an injective map preserves feasibility and objective.
* C50 LP-based MSRP: `lp_spinlocks.cpp` (objective, Constraints 1-7, contention windows) and the non-preemptive part of `lp_spinlock_msrp.cpp` (Constraints 8, 9). Spec: discrete-time partitioned FP schedules, one list of requests per resource (SpecSpinFP). In a busy window every lost instant is attributed to one request and one kind of blocking; the counts divided by the request lengths are a feasible solution with the lost time as objective, so the optimum is at least as large. End to end: take the first job that exceeds R; the window [ts, ts + R_i) from the last quiet time is too short for the demand, contradiction. lrint is rounding to the nearest integer, ties to even, on exact rationals.
* C51 baseline spin locks: the same attribution without Constraints 8 and 9, which are the only ones that need the FIFO order.
* C52 unordered spin locks: the non-preemptive part of `lp_spinlock_unordered.cpp` (wait-time search, Constraints 10 and 11). While a request waits, a remote request holds the resource; a wait of w instants would need w instants of holding, but the holders that fit into w give at most w - 1. Termination: the estimate strictly increases until it exceeds the period.
* C53, C54 priority-ordered spin locks: the non-preemptive parts of `lp_spinlock_prio.cpp` and `lp_spinlock_prio_fifo.cpp` (wait-time searches, Constraints 12-19). Locking priorities are a function `rp` of task and resource; `get_cpp_model_priorities` is what is left of it after the Python layer. Spec `SpecPrio.v`: a request that starts while another waits has at least its locking priority, and FIFO among equals. While a request waits, first at most one request of lower priority holds the lock and then only requests of higher or equal priority that were issued in the wait; the rest is the argument of C52. The conditions (`prio_condition`, `prio_fifo_condition`) are those under which the code's wait-time bound and its choice of priorities are right; the refutations show that they cannot simply be dropped. Executions in examples and counterexamples are finite tables checked by a boolean function that is proved sound (`table_ok_sound`, ProofSpinTable.v).

* C55 Liu and Anderson's test: `la.cpp` (test points, no-carry and carry-in work, suspension lengths, bound on the test points, time limit as an oracle) in `ModelLA.v`. Spec `SpecSusp.v`: global EDF schedules whose jobs suspend themselves for up to a bound, at any time, but not while they run. Proof: from the first missed deadline go back to the last moment at which not all processors were busy with jobs due by then; m-1 tasks carry work in, suspending tasks may always do so; the window is shortened to start at a test point (`scarry_core`). Beyond the largest test point the utilization bound applies. The iterator is shown to reach every test point up to the bound.
* C56 Baruah's test and the combined test in C++: `baruah.cpp` and `gedf.cpp:15-62`. The C++ and the Python version decide the same condition (`bar_cond`); beyond the bound on the test points the condition holds by itself, so that the different roundings of the bound do not matter. Safety then follows from C19. The combined test for constrained deadlines; with deadlines beyond the period a simulated schedule (C36) refutes it.
* C57 FF-DBF in C++: `ffdbf.cpp` with the iterators over the test points, the priority queue and the search for sigma. The points a queue still delivers are described as a set; the scan finds the least point of that set where the condition fails, and so does the Python version on the same set. Hence the verdicts agree; safety and the meaning of the parameters follow from C19. Termination by counting the points up to the bound.
* C58 The LOAD test of Baker and Baruah in C++: `load.cpp` with `TaskSet::approx_load`, `k_for_epsilon` and `Task::approx_demand` in `ModelLoad.v` (the ceiling of a `double` is an exact ceiling). Plan: the computed load bounds dbf(t)/t for every t (largest test point before t; linear parts decrease relative to t because D <= T); for every rate x up to mu, a first miss gives a leftmost interval with work above x times its length, fewer than x tasks carry work into it (the slot before it is not full), each adds at most delta times the length; applied to mu and to the integer below it. Then the combined C++ test with no test left abstract. For any values of k the load is a bound; for those of `k_for_epsilon` it is within epsilon. One processor is handled by a separate busy-period argument. Deadlines beyond the period: refuted by witnesses.
* C59 Feasibility under arbitrary processor affinities: `apa_feas.cpp`, `apa_feas.h`, `get_native_affinities` in `ModelAPAFeas.v`; the solver is an oracle whose answer is a solution or the absence of one (`SpecLP.feasible`). Spec `SpecAPAFeas.v`: schedules on m processors in slots of length 1/K; a task runs on one processor of its affinity at a time. Rejected: in the synchronous periodic sequence, up to the hyperperiod, the time of each task on each processor solves the program. Accepted: with K a common denominator, each unit of time is cut into K rounds; edge colouring of the bipartite multigraph (`ProofColor.v`) gives every task its share, and every legal sequence meets its deadlines. A task without any processor drops out of the program, a finding.
* C60 Partitioned EDF with the MSRP, classic analysis: `msrp.cpp`, `qpa_msrp.cpp`, `assign_edf_preemption_levels` in `ModelMSRP.v`. Spec `SpecSpinEDF.v`: executions on several processors with FIFO spin locks (non-preemptive) and, for local resources, EDF with the stack resource policy (a job starts only if it is the most urgent one and its preemption level exceeds the ceilings of all resources in use). Proof: a spinning job waits for at most one request per other processor; in a busy window that ends with a miss, jobs with later deadlines run only inside a single critical section that was open when the window began; the demand with blocking is monotone, so that the QPA search decides the condition.
* C61 The same bounds under partitioned fixed priorities: `msrp_bounds` as applied by `apply_msrp_bounds` (`ModelMSRPFP.v`), followed by `fp/rta.py` (`ModelFP.v`, legacy branch). Criterion on the task set in `SpecMSRPFP.v`, schedules in `SpecSpinFP.v`. Proof: in a busy window a single request of a lower-priority job can keep the processor; every job of the window occupies it for at most its inflated cost; the fixed point of the analysis satisfies the criterion.
* C62 The LP-based test for partitioned EDF with the MSRP: `lp_pedf_analysis.cpp`, `lp_pedf_spinlocks_common.cpp`, `lp_pedf_msrp.cpp` in `ModelPEDF.v`; the solver is a parameter, and what the machine makes of integers is a parameter (`exact` or `u64`). Spec: the schedules of `SpecSpinEDF.v`; feasible solutions and optima of a program with declared bounds in `SpecPEDF.v`. Proof: the demands that an interval of length t can carry are described by integer vectors, which are feasible for the program, grow with t and change only at the check points; QPA decides the condition between two bounds, the chain of bounds reaches the fixed point of the arrival curve. In an execution with a first miss, the requests of other processors that delay a request of the busy window form such a vector. With two exceptions that are refuted by witnesses: a comparison in Constraint 12, and unsigned integers that wrap around in the search for check points.
* C63 The classic DPCP bounds: `dpcp.cpp` and the class ResourceLocality in `ModelDPCP.v`. Spec (`SpecDPCP.v`): executions in discrete time in which the requests for a resource are served by agents on the processor the resource is assigned to; the rules of the priority ceiling protocol per processor (a lock is granted only above the ceilings of the other locks held there and to the highest-priority waiting request; the processor serves a request of higher priority, or one that inherits the priority of a request denied the lock on its account). Theorems: all sets of instants at which a job waits for its remote requests, at which agents of other tasks occupy its processor, or either, are at most as large as the remote, local and total bound. By counting (`ProofBlame.v`): every such instant is charged to an executing request; requests of higher priority are limited by the job window, those of lower priority also by one per request of the job, since two lower-priority requests cannot both hold locks with a ceiling that reaches the job. Refuted without an assigned processor and for equal priorities.
* C64 The bounds of the partitioned FMLP+: `fmlp_plus.cpp` in `ModelFMLPPlus.v`. Spec (`SpecFMLPPlus.v`): discrete time, a function tells which job each processor executes; FIFO queues per resource, lock holders are boosted and ordered by the times of their requests (optionally non-preemptive), otherwise fixed priorities; a job is pi-blocked while it is pending and its processor executes neither a job of higher priority nor one of its own task. Proof: every instant of remote waiting is charged to a request that executes on the processor of the lock holder and was issued before; per request of the job and task there is one, and per processor no more requests of the job have a direct blocker there than the code counts. Local requests of lower priority are outstanding at the release of the job or when it resumes. The counters are assumed to fit into an unsigned int. For non-preemptive critical sections the remote part is proved, the local part too if no local task shares a resource with the job, and refuted otherwise. Concrete executions are checked by a boolean checker that is proved sound (`f_check_sound` in `PropFMLPPlus.v`). The schedule must serve every pending job, also one whose predecessor is suspended; tasks with response times above their periods are therefore covered only in schedules that do so.
* C65 The classic MPCP bounds: `mpcp.cpp` in `ModelMPCP.v`, including its 32-bit variables and products (mpcp.cpp:259-264, 278-290). Spec (`SpecMPCP.v`): discrete time, the schedule of each processor; priority queues per resource, lock holders execute above all other jobs in the order of their remote ceilings, otherwise fixed priorities; optionally virtual spinning. Proof: while a lock is held its processor executes the holder or at most one request of each local task with a ceiling as high, which bounds holding times; a waiting request is delayed by at most one holder of lower priority and by the requests of the higher-priority jobs in the window, so it cannot wait longer than a fixed point of the recurrence; the loop ends and finds one. Local requests of lower priority are outstanding at the release of the job or when it resumes, as in C64. Needs response times within periods, distinct priorities and products that fit into an unsigned int; refuted otherwise.
* C66 Nested critical sections handed to the native code: `nested_cs.cpp`, `nested_cs.h` and get_cpp_nested_cs_model in `ModelNestedCS.v`; hash maps are partial functions and the order of iteration is a parameter, an index out of range is a value. Spec: the nesting forest of C32 (`path_to`, `requested_inside` of `SpecResources.v`). Proof: the flattened forest is accepted and parents have smaller indices, so the loops over enclosing sections end and collect exactly the resources on the path; depth-first search with a visited map ends for every graph, collects only reachable resources, and all of them if the graph has no cycle (no resource on the stack can be met again). With cycles it is incomplete: refuted. The three-argument has_common_outer: refuted.
* C67 The probabilistic CAN analysis of `broster.py`: get_prob_poisson, get_prob_schedulable with its cache prob_vec and is_schedulable in `ModelCANProb.v`, over the real numbers of the standard library in place of mpmath's arbitrary-precision numbers; the worst-case transmission times are those of C35. Spec (`SpecCANProb.v`): the Poisson distribution; the numbers of faults in consecutive intervals are independent; entry n is the probability that for n the first time no more than n faults fall into the n-th window, as a sum over all sequences of fault counts. Proof: Poisson distributions convolve (binomial theorem), first-passage decomposition by induction on n; the total mass is at most 1, so no assertion fails. Histories of queries: induction over the list of queries. Repeated cumulative queries: refuted.
* C68 The success probability of replicated CAN messages: get_prob_correct_sync, get_prob_correct_async, get_prob_time_periodic, powerset and get_prob_schedulable of `prob_success.py` in `ModelCANSuccess.v`, over real numbers as in C67; the flag `omitted` is passed as the list of omitted ids instead of being stored. Spec (`SpecCANSuccess.v`): every replica is omitted independently, the number of faults is Poisson distributed, every timely replica is corrupted independently; success means that the correct ones are a strict majority of the timely ones (sync) or of all (async). Proof: the subsets of powerset correspond to the outcomes of r trials by induction on the replicas, the sums of binomial terms to the outcomes of k trials by Pascal's rule; the loop over fault numbers ends and misses no term since fewer replicas are timely with more faults (C35).
* C69 FIT rates: get_fit_rate of `prob_success.py` in `ModelCANSuccess.v`. Spec: the mean of the number of activations up to the first failure, as the limit of a series. Proof: calculus with the standard library (ln p squared against (1-p) squared over p). Whether the rate is never too small and grows with the probability of failure: refuted.
* C70 The classic analysis of the global priority inheritance protocol: `global-pip.cpp` in `ModelPIP.v`, function by function (the unsigned subtractions and the 32-bit results wrap). Spec (`SpecPIP.v`): executions on identical processors in discrete time with priority-ordered queues and inherited priorities. Proof: every instant of a job's response time is one at which it executes, waits for a holder that executes, or sees all processors execute jobs of higher priority or lock holders with inherited priority; the second kind is split into at most one section of lower priority per request and the sections of higher priority, and the last kind is divided by the number of processors. Workload per task as in the window lemma of C45.
* C71 The response times found with these bounds: the recurrence of `bertogna.py` (C45) with the attributes set by apply_classic_pip_bounds. Proof: induction over time on the first job that is late.
* C72 The parallel priority ceiling protocol: `ppcp.cpp` in `ModelPIP.v`, is_reasonable_priority_assignment and apply_classic_ppcp_bounds of `bounds.py`. The indirect blocking of 'reasonable' assignments is refuted; the general case is compared with C70.
* C73 Linear programs of `util/linprog.py`: LinearProgram, kill_non_positive_vars, Solution.evaluate, solve_with_cplex in `ModelLinProg.v`, over rationals; CPLEX is a function that stands for the solver, and the file it reads is modelled up to the rounding of the bounds by `%f`. Spec (`SpecLinProg.v`): non-negative assignments, feasibility, optimum. Proof: with positive coefficients a bound of at most 0 forces all its variables to 0; feasible solutions of both programs correspond. Zero or negative coefficients, infeasible programs and bounds with more decimals: refuted.
* C74 apply_variable_prefix and merge, same files. Proof: names with different prefixes differ if prefixes contain no underscore, so that feasible solutions of the parts can be mixed; induction over the list of programs. Prefixes with underscores: refuted.
* C75 CAN bus simulator, `canbus/can_sim.cpp`, `can_sim.h` and what it uses of `schedule_sim.h`, `event.h`. Model: the scheduler's members (time, bus, pending messages, events, job objects, remaining faults) and the sequence of callbacks; ties in the two priority queues are broken by an arbitrary function; fault times are arbitrary lists; the callback job_completed may take host failures away (is_commission does). Specification: a labelled transition system of a CAN bus (SpecCANSim) with no queues and events. Proof: forward simulation, by induction over the steps of the run; trace-level statements follow from invariants of the transition system. The random generation of fault times is not modelled; the statistics collected by the callbacks are C77. Results hold for runs that the fuel of the model suffices for, and C75_terminates shows that some fuel does.
* C76 the instances of messages, same files: which instance is transmitted, completed, omitted or reported late. Proof: as for C75. The claims that no instance is sent before its release and that every late instance is reported are refuted by runs.
* C77 statistics of the CAN simulator, `canbus/tardiness_stats.cpp:5-206`: which rounds the synchronous (majority at the deadline) and the asynchronous protocol (enough messages before the deadline) count as successful or failed. Model: the entry of one task id in each of the two maps and the calls of the two callbacks. Specification: counts of correct and corrupted messages in the list of calls so far (SpecCANStats), with no round records. Proof: invariant over the list of calls; the order of messages that the exact statements assume is proved of the simulator (C75). Not modelled here: generation of random faults and wall-clock time; for the averages see C79.
* C78 G-FRL, `sched/gfrl.py`: the functions s_val to func_val, the assertion on the value that the search finds, the priority points derived from it, and what follows. Model: the search itself (gfrl.py:110-373) is an arbitrary result, since the code asserts what it needs of it. Specification: the compliance condition with rational priority points, and schedules by rational priority points (SpecGFRL). Proof: exchange argument for the largest values as in C38; safety from that of C38 by stretching time so that all priority points become integers. That the call of gel_pl with one argument too many raises makes the claim that bounds are returned false. Not modelled: the search, s_slope to func_slope. The factor exists (C78_exists: the function is piecewise linear, hence has a rational zero), is unique, and is the smallest that any compliant priority points between 0 and the period reach (C78_optimal).
* C79 the driver of the fault-injection simulations, simulate_for_tardiness_stats (tardiness_stats.cpp:208-438): the loop over iterations with injected faults, the resets in between, the replacement of all fault-free iterations by one simulation, and the averages printed. Model: on top of the simulator of C75; the random faults of each iteration are arbitrary lists, one task id is considered at a time, the counters of a simulation are an arbitrary function of its log, except that without faults they are those of C77 for some coins, NaN is None. Specification: the mean of the failure ratios of separate new simulations (SpecCANDriver). Proof: a reset simulator equals a new one; without faults neither the callback nor the coins matter, so that one simulation stands for all (`C79_mean`); it ends for positive costs and periods. That the result is a number is refuted: a task without any decided round yields 0/0.
* C80 completion times from the CAN simulator, get_job_completion_time (canbus/job_completion_stats.cpp, .h): a simulation that is aborted by the completion of one instance of one message. Model: on top of C75, with the callback job_completed reading the log; an uninitialised result is None. Specification: the first matching completion in the complete, never aborted simulation. Proof: the callbacks only ever extend the log, and the aborted simulation is a prefix of the complete one. That the result is always initialised is refuted.
* C81 tables of overheads, `util/csv.py`: load_columns. Model: the rows that csv.reader yields, with arbitrary strings, strip(), conversion and iteration order of the dictionary; all exceptions as values. Specification: the last column with a label and the list of its converted cells; for proper tables the transposed table. Proof: the dictionary as a list without repeated keys, induction over the columns. Not modelled: csv.reader, opening and closing of files. Refuted: by_idx with repeated labels; empty lines are accepted by default.
* C82 overheads read from files, `overheads/model.py:42-70, 93-122`: Overheads.from_file, load_approximations and CacheDelay.from_file. Model: composition of C81 (load_columns) and C27 (monotonic_pwlin) over the loop of fields; float() and strip() are arbitrary functions, attributes are a function of their names. Specification: the number in a row and column of the file. Proof: the points interpolated are exactly the rows of the file, then C27. Without non_decreasing the code raises NameError (`C82_plain_fails`); a file without rows is refused (`C82_header_only_refuted`).
* C83 storage objects, `util/storage.py`. Model: the three attribute methods over an association list for Python's dict, with the order of attribute lookup (class attributes first) written out; names with double underscores and `__repr__` are left out. Spec: the last write in the history, by attribute or item, that nothing touched since. Proof by induction on the history from the end; the names of dict's methods are the exception (`C83_method_names_refuted`).
* C84 clusters, `example/mapping.py`: partition_tasks. Model: composition with the rollback bins of C23 (WorstFit, plain bins of different capacities); a cluster carries its number, its cpus and its tasks. Spec: an inductive relation that places tasks one by one where there is most room, and a stuck state. Proof: the loop of C23's model follows the relation; capacity, conservation and the sufficient bound are derived from the relation.

## Findings: claims one would expect that are false of the code

Each of these is either proved as a theorem named `..._refuted` (or shown by an
`Example`) or was seen while transcribing the code and is recorded here only.

* rta.py: the loop test ignores the task's own jitter (C10).
* binpack: next_fit drops all items after the first misfit and fails with zero bins; best_fit with zero bins; any_fit reports a misfit twice (C20-C22).
* rollback bins: the fit-based heuristics over-commit ductile bins, do not revalidate the global constraint; MaxSpare differs from WorstFit under a global constraint; `DidNotFit` is not imported in rollback.py (C23).
* Global EDF: GFB accepts with zero processors; BCL/BCLI/RTA accept sets with cost > deadline, RTA may not terminate on them; the RTA verdict depends on the task order for min_delta 2; BAK, which the combined test also runs for deadlines beyond the period, does not clamp T_i - D_i at zero and accepts unschedulable sets of such tasks (C19_bak_arbitrary_refuted); FF-DBF does not check the times already passed again when it moves on to the next sigma, yet it is sound (C19_ffdbf_sound, C19_ffdbf_case); native BAK differs for deadlines beyond the period (unsigned wrap); the Python and native combined tests differ on one processor (C15-C19).
* Overheads: overheads/pfair.py:52 and quanta.py:37,41 swap arguments; negative periods and deadlines can be accepted; jlfp uscale = 0 raises; fp.py and pfair.py pass the task set instead of its length to overhead functions (C25, C26). charge_spinlock_overheads rounds up each length but the cost only once (locking.py:24-34), so the critical sections of a task can become longer than its cost (`C25_sections_refuted`; not with whole numbers, `C25_sections_fit`).
* Piece-wise linear functions: monotonic interpolation loses a value at repeated positions; is_constant raises; make_monotonic([]) raises (C27).
* Global fixed priority: bertogna.py accepts unschedulable sets with deadlines beyond the period (C45_arbitrary_refuted), guan.py asserts instead; guan.py, which fp.is_schedulable uses on several processors, ignores the attribute `blocked` that rta.py and bertogna.py honour, so C46 covers schedules without blocking only.
* RUN: reduce accepts servers with a rate above 1 (C24).
* Locking: the single-issue recomputation of clustered_omlp_bounds drops dedicated_irq; kx-OMLP wraps around for zero processors and subtracts a processor for dedicated_irq even if no task is in that cluster (hypothesis irq_ok of C29_kx_safe); Ilp_i_ppcp tests set membership the wrong way round and is always zero (C28, C29); merge_rw_requests keeps only the length of the last bound per type, so a task with several bounds per resource is charged too little; task_fair_rw_bounds uses the number of blocking writers of all requests for a single reader (safe, but not the tightest) (C47, C48).
* CAN: the analysis covers only the first instance of a busy period (C35_refuted); prio_assign.py:43 rounds down for integer parameters, so that the assertion in line 44 can fail (C41_integer_assertion_refuted); set_priorities_david_and_burns does not reset stale caches before the first level.
* partition.find_connected_components leaves stale aliases (C31_refuted).
* gy_rta: the index advances by at most one task per point of change, so with equal deadlines (other than the two smallest) response times are negative or minus infinity (C39_refuted); at utilization exactly one, which the guard admits, the search for the busy period never ends (C39_full_utilization_diverges); on success the functions return None, which is as false as the False they return on failure.
* apa: first fit keys affinities by task id, so tasks that share an id (None by default) can be placed outside their affinity (C40_refuted); period_transform divides the deadline like the period, which is unsafe for deadlines shorter than the period, and meta_reduce_periods then accepts infeasible sets (C42_refuted); wfd builds a dictionary of affinities that it never uses.
* gel_pl: the uniprocessor shortcut returns the periods without checking for overload (C38_shortcut_refuted); native GELPl never checks (C38_native_overload_refuted), replaces a priority point of 0 by the deadline, after which the bounds are wrong for the scheduler asked about (C38_native_zero_refuted), and drops the sign of a negative x_i (harmless: the bound only grows).
* da.py: non-preemptive tardiness on one processor is reported as 0, so the bound is too small (C43_np_single_refuted); on two processors it charges too little blocking and is too small as well (C43_np_refuted: five tasks with cost 5, bound 13, response time 14); tardiness_x with Lambda = 0 slices `[0:-1]`; edf.bound_response_times asserts implicit deadlines through da.
* generators: squeezing can produce cost 0 and need not reach the cap (C34_squeeze_exact_refuted); a utilization cap alone does not ensure termination if periods are unbounded (C34_terminates_refuted); StaffordRandFixedSum fails with an IndexError when the utilization equals the number of tasks, which main accepts (C34_fixed_sum_full_refuted), and yields a negative utilization if numpy draws exactly 0 (C34_fixed_sum_zero_refuted); gen_taskset exceeds the period range when its end is not a multiple of the granularity, and ignores that quantize_params gave up (C34_emstada_refuted).
* serialize: response_time is written but not read, the priority of a request is not written, an empty affinity is lost (C33_lossy_refuted); integers are read through float, so those with more than 53 significant bits change (C33_large_refuted); None becomes the text "None", ids like "007" become numbers (C33_none_refuted); re-entrant sections can be written but not loaded (C33_reentrant_refuted); task() sets an attribute of itself (`task.xml`) instead of `t.xml`.
* C78: G-FRL never returns bounds: compute_response_bounds calls gel_pl.compute_response_bounds with four arguments although it takes three (gfrl.py:387, gel_pl.py:68), so that every task set with bounded tardiness raises TypeError, after gfrl_pp has been set. The priority points set are right: the function asserted to be zero is strictly decreasing, so that they do not depend on the search, and scheduling by them keeps every response within L times the relative deadline. func_slope, unused, refers to an undefined name and calls S_slope with one argument too few.
* Others: overheads/model.py misses an import; canbus powerset([]) recurses forever; native Task::init derives the default priority point from the parameter `deadline`, which may be 0; extract_resources drops cost, deadline and request type.
* simulator: sim/edf.py ignores its argument preemptive (C36_python_preemptive_refuted); a miss is noticed only when the late job completes, so that a job can miss its deadline within the simulated interval unnoticed (C36_unfinished_refuted); the simulation runs to the first event after its end, and completions at that event are counted; when several late jobs complete at once, edf_first_violation returns the deadline of the last in processor order, not the earliest.
* LP variables (C49): `encode_request` asserts request numbers below 2^22, but only 20 bits lie below the task number, so that from 2^20 on different tasks share a variable (`C49_collision_refuted`). Not proved, noted while reading: `set_objective` for GLPK overwrites the coefficient of a variable that occurs twice in the objective, and `glp_load_matrix` rejects duplicate entries in a row; both happen if a task has two request bounds for one resource (excluded by `wf_info`). Local tasks of equal priority are not counted by `count_local_hp_reqs` although they are by `foreach_local_highereq_priority_task_except`; the theorems assume distinct priorities per processor.
* Priority-ordered spin locks (C53, C54): `ResourceSharingInfo::add_request` (sharedres_types.h:295-304) ignores its argument locking_priority, so that the priorities set in Python never reach the analysis; the wait-time searches return 0 if there is no request of lower (or equal) priority, so that only one request per remote task of higher priority is counted (`C53_lowest_unsafe`, `C54_as_called_priority_unsafe`); Constraint 14 uses the priorities of the higher-priority tasks for arrival blocking (`C53_mixed_unsafe`); Constraint 18 multiplies by the number of requests of the higher-priority tasks, which can be zero while a lower-priority task spins (`C54_arrival_unsafe`).
* Global EDF in C++ (C55, C56): LA is applied to deadlines beyond the period, for which it is not safe (`C55_arbitrary_deadlines_unsafe`); it is switched on by default and `edf.is_schedulable_cpp` has no argument to switch it off, so that `edf.is_schedulable` accepts such sets (`C56_combined_arbitrary_deadlines_unsafe`). `native.GlobalEDF(1)` uses the density cost / deadline, which is wrong for deadlines beyond the period (`C56_combined_uniprocessor_unsafe`; the Python layer uses QPA on one processor).
* `native.FFDBFGedf(m).is_schedulable` on an empty task set takes the top of an empty priority queue (`C57_empty_undefined`); the Python version accepts the empty set. `native.GlobalEDF` returns before for the empty set.
* The LOAD test (C58) is applied to deadlines beyond the period, for which the computed load can be too small: the shortcut `density <= utilization` compares sums in which C/D of one task and C/T of another are both below the larger value (`C58_load_underestimated`). It then accepts sets that miss deadlines, on one and on two processors (`C58_arbitrary_deadlines_unsafe`). `TaskSet::approx_load` also writes to `k[i]` after `k.reserve` without resizing the vector (undefined behaviour) and prints `total_times` to standard output.
* apa_feas.cpp: `add_equality` drops a constraint without terms, so a task with an empty affinity is
  left out of the program and the system is accepted although the task can never run
  (`C59_no_processor_unsafe`). If such tasks come last, the lengths differ and the call aborts.
* MSRP test for EDF (C60): it uses the preemption levels of the model for "can be preempted by"; with levels that do not follow the deadlines (nothing checks it) it accepts sets that miss deadlines (`C60_levels_unsafe`). Tasks on processors `num_cpus` and above count as not blocked and not blocking (`C60_processors_unsafe`, `C61_processors_unsafe`).
* LP-based MSRP test for EDF (C62): Constraint 12 (lp_pedf_spinlocks_common.cpp:283-285) compares with `>=` where `>` is needed, so a local resource whose ceiling is the level of the least urgent task with a deadline in the interval counts as harmless, and sets that miss deadlines are accepted (`C62_local_resources_unsafe`). `last_check_point_before` (lp_pedf_analysis.cpp:184-187, 206-209) subtracts a period from an unsigned value that may be smaller; the result is huge, QPA stops early and accepts (`C62_wraparound_unsafe`: a task with cost 8 and deadline 5, no resources).
* Classic DPCP bounds (C63): split_by_locality drops the requests for a resource without a processor (dpcp.cpp:37-40), with the comment that it stands for a dedicated processor; waiting there is then in no bound at all, although jobs do wait there (`C63_unassigned_unsafe`). Requests of tasks with the same priority count as requests of lower priority, one of which is charged per request (dpcp.cpp:84-97); with equal priorities more than one can be served before (`C63_equal_priorities_unsafe`).
* Partitioned FMLP+ (C64): with non-preemptive critical sections the code adds remote delays only (fmlp_plus.cpp:330-336). When a local job ahead in the queue obtains the lock, a later non-preemptive section of a third local job can delay it, so a local task can block once per such job, but pfmlp_bound_local_blocking charges each local task only once per own request plus once for the release (fmlp_plus.cpp:240-253); both the local bound and the total are then exceeded (`C64_nonpreemptive_unsafe`).
* MPCP (C65): the bounds assume that at most ceil(I/T)+1 jobs of a task are pending in an interval (mpcp.cpp:142-143), which fails when response times exceed periods: a job can then wait longer than the remote bound (`C65_arbitrary_deadlines_unsafe`). A task of equal priority is charged like one of lower priority, once in total (mpcp.cpp:172-182), although several can be ahead in the queue (`C65_equal_priorities_unsafe`). The product of a per-request bound and the number of requests is computed in 32 bits (mpcp.cpp:259-264), and so is the arrival blocking (mpcp.cpp:278-290): a task whose waits cannot fit into its period can get a bound of zero (`C65_wraparound_unsafe`).
* Nested critical sections (C66): has_common_outer with two sections walks the outer index of the other section in the sections of this task (nested_cs.h:54-55), so it misses common resources, reports wrong ones and can read out of bounds (`C66_common_outer_refuted`; for sections of the same task it only tells whether both are nested, `C66_common_outer_same_task`). It has no caller in the repository. The transitive nesting relation is incomplete for cyclic nestings, and which pairs are missing depends on the hash order (`C66_cyclic_incomplete`); the code says it assumes cycle-freedom but does not check it.
* Probabilistic CAN analysis (C67): get_prob_schedulable without a number of faults starts again at 0 faults but appends to the prob_vec left by earlier calls (broster.py:45-70), so a second call counts every probability twice (`C67_repeated_refuted`). With fault rate 0, is_schedulable answers False for one or more faults although the deadline is met (broster.py:93-98, `C67_rate_zero_refuted`).
* Success probability (C68): the probability of corruption is computed from the omission rate `po` (prob_success.py:78), there is no commission rate. The docstring of powerset says that the empty set is not returned, but it is (and has to be). get_prob_time_periodic with k = 0 never returns (`C68_zero_diverges`); powerset of an empty list recurses without end.
* FIT rates (C69): get_fit_rate replaces a sum by an integral (prob_success.py:123-128) and reports for every probability fewer failures than the mean implies (`C69_accuracy`); for small probabilities the rate even falls with the probability of success (`C69_monotone_refuted`).
* Global PIP (C70): tasks of equal priority count neither as higher nor as lower (global-pip.cpp, foreach_higher_priority_task and foreach_lower_priority_task), so nothing is charged for them although they block each other (`C70_equal_refuted`). W_l(t,x) subtracts unsigned numbers and wraps when the sections of a job are longer than its deadline plus the interval.
* P-PCP (C72): the tests for "task not considered yet" at ppcp.cpp:102 and 120 are inverted, so the set of considered tasks stays empty and the indirect blocking of 'reasonable' assignments is always 0. A task without requests then gets the bounds (0, 0) (`C72_no_requests`), and there is an execution in which it is blocked (`C72_unsafe`). Were the tests right, the sum would use `tl_id` of the last lower-priority task instead of that with the smallest shift (ppcp.cpp:112).
* Linear programs (C73): kill_non_positive_vars says that it assumes positive coefficients, which nothing checks; with a coefficient 0 or below it can lower the optimum (`C73_zero_coefficient_refuted`, `C73_negative_coefficient_refuted`), and it can make infeasible programs feasible (`C73_infeasible_refuted`). Bounds are written with `%f` (linprog.py:140, 143), so a bound below half a millionth becomes 0 (`C73_rounding_refuted`). apply_variable_prefix leaves local_objective unchanged.
* Merged programs (C74): the separator between prefix and name is not protected, so 'a' + '_' + 'b_x' and 'a_b' + '_' + 'x' are the same variable (`C74_collision_refuted`).
* CAN simulator (C76): update_seqno rounds (time + 1) / period, so that a message that gets the bus one time unit before its next release transmits the instance that has not been released yet, and the one that was waiting is dropped (`C76_early_refuted`). Deadline events are created only in add_ready, so an instance that replaces another in the controller is never reported late (`C76_deadline_refuted`), nor is it checked for omission faults.
* CAN statistics (C77): job_completed_sync and job_completed_async both call is_commission, which erases the host failure it finds, so the asynchronous statistics see a corrupted message as correct unless its host failed twice (`C77_async_blind`, `C77_async_corrupted_refuted`). A message received after its deadline whose deadline was never reported (see C76) makes its round successful in the asynchronous statistics (`C77_late_refuted`).
* CAN simulation averages (C79): a task none of whose deadlines is reached before the end of an iteration has 0 rounds, and 0.0 / 0 makes the probability printed for it NaN whatever the other iterations yield (`C79_number_refuted`).
* CAN completion times (C80): completion_time is not initialised, and get_job_completion_time returns it if the instance never completes, for instance because it was replaced in the controller by the next one (`C80_initialised_refuted`).
* CSV tables (C81): with a repeated label by_idx holds 0 instead of a column at the earlier position (`C81_repeated_refuted`); an empty line makes load_columns raise IOError by default although the columns skip empty lines (`C81_empty_line_refuted`); the docstring's x.columns is the map from labels to indices.
* Overhead files (C82): overheads/model.py uses piece_wise_linear without importing it, so that non_decreasing=False raises NameError for every file with an overhead (`C82_plain_fails`); a header without rows raises IndexError instead of yielding no overheads (`C82_header_only_refuted`).
* Storage objects (C83): a value written as an attribute with the name of a dict method (`o.items = 3`) is stored, but reading the attribute gives the method (`C83_method_names_refuted`).
* Clusters (C84): partition_tasks drops empty clusters after numbering, so that task.partition is not the index of the task's cluster in the result (`C84_position_refuted`), for instance with clusters of one processor and a dedicated processor.

## Not modelled

LP-based blocking analyses (`native/src/*/lp_*`) other than those of C49-C54 and C62, the LP solvers, the text of LP files
(linprog.py:17-35) except the rounding of bounds, the search loop of gfrl.py (110-376) and its slope functions, plotting utilities, SWIG glue, random number generation itself, wall-clock time (an oracle where it matters).

## Trusted base

* Coq's kernel (8.16.1) and its standard library.
* `Print Assumptions` stands beneath each property theorem in the Prop files and
  prints "Closed under the global context" for every one of them, that is, no axiom,
  except for those about probabilities (C67-C69), which use the real numbers of the
  standard library. For these it lists the standard library's axioms:
  `ClassicalDedekindReals.sig_not_dec`, `ClassicalDedekindReals.sig_forall_dec`,
  `FunctionalExtensionality.functional_extensionality_dep`, `Classical_Prop.classic`.
* The transcription of the code into the Model files, which is by hand. Each
  definition cites the lines it stands for, so that it can be compared.
* The Spec files, which state what the properties mean.
