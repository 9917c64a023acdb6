{"id": "C01", "title": "dbf bounds the demand of every legal job sequence and is tight", "statement": "For a sporadic task, tsk.dbf(t) is an upper bound on the total execution cost of jobs that both arrive in and have their deadline inside any window of length t, and some legal job sequence reaches exactly tsk.dbf(t).", "quantifier": "every task with positive period and deadline, every window start and length, every arrival sequence with separation of at least one period and job costs up to the task cost", "why_tests_cant": "The set of arrival sequences and windows is infinite; tests only evaluate the formula at a few points.", "anchors": ["schedcat/model/tasks.py: SporadicTask.dbf", "schedcat/model/tasks.py: TaskSystem.dbf", "native/include/tasks.h: Task::bound_demand, Task::dbf"]}
{"id": "C02", "title": "rbf bounds the requested work of every legal job sequence and is tight", "statement": "tsk.rbf(t) is an upper bound on the total cost of jobs arriving in any closed window of length t, and some legal job sequence reaches it.", "quantifier": "every task with positive period, every window, every legal arrival sequence", "why_tests_cant": "Infinite set of arrival sequences and windows.", "anchors": ["schedcat/model/tasks.py: SporadicTask.rbf", "schedcat/model/tasks.py: TaskSystem.rbf"]}
{"id": "C03", "title": "points_of_change enumerate exactly the steps of dbf and rbf", "statement": "The iterators returned by dbf_points_of_change(max_t, offset) and rbf_points_of_change(max_t, offset), for a task and for a task system, yield exactly the non-negative points up to max_t at which the (shifted) bound function changes, in strictly increasing order and without duplicates.", "quantifier": "every non-empty task set with positive parameters, every max_t, every non-negative offset", "why_tests_cant": "A test can only list the points for some task sets; a missing or repeated point for other parameters makes downstream tests (BAR, FF-DBF) unsound.", "anchors": ["schedcat/model/tasks.py: SporadicTask.dbf_points_of_change", "schedcat/model/tasks.py: SporadicTask.rbf_points_of_change", "schedcat/model/tasks.py: TaskSystem.dbf_points_of_change", "schedcat/util/iter.py: uniq, imerge"]}
{"id": "C04", "title": "maxjobs bounds the number of jobs pending in any interval", "statement": "If every job of a task completes within response_time of its arrival, at most tsk.maxjobs(L) jobs of the task are pending at some point of any interval of length L, and that number is reached by a legal sequence.", "quantifier": "every period, response-time bound, interval, legal arrival sequence and completion-time assignment", "why_tests_cant": "Infinite set of arrival/completion histories.", "anchors": ["schedcat/model/tasks.py: SporadicTask.maxjobs", "native/src/sharedres.cpp: TaskInfo::get_max_num_jobs"]}
{"id": "C05", "title": "hyperperiod is the least common multiple of the periods", "statement": "TaskSystem.hyperperiod() is a positive multiple of every period and divides every common multiple, independently of task order.", "quantifier": "every non-empty task set with positive integer periods", "why_tests_cant": "Ranges over unbounded lists of unbounded integers.", "anchors": ["schedcat/model/tasks.py: TaskSystem.hyperperiod", "schedcat/util/math.py: lcm"]}
{"id": "C06", "title": "topsum and utilization(heaviest) are maxima over all selections", "statement": "topsum(lst, fun, n) and TaskSystem.utilization(heaviest=n) return the largest total obtainable by selecting at most n of the (non-negative) values.", "quantifier": "every list, every n, every selection of at most n positions", "why_tests_cant": "The number of selections is exponential and the list length unbounded.", "anchors": ["schedcat/util/math.py: topsum", "schedcat/model/tasks.py: TaskSystem.utilization"]}
{"id": "C07", "title": "Uniprocessor fixed-priority RTA is sound for every schedule", "statement": "If fp.rta.bound_response_times(1, ts) returns True then, in every preemptive fixed-priority uniprocessor schedule of every legal job sequence of ts (release jitter and priority inversion bounded by the task's jitter and prio_inversion fields, no self-suspensions), every job completes within the recorded response_time of its arrival.", "quantifier": "every task set, every arrival sequence, every release jitter, every per-job execution time up to the cost, every schedule that obeys the policy, every job", "why_tests_cant": "The property quantifies over all schedules of an infinite set of arrival sequences.", "anchors": ["schedcat/sched/fp/rta.py: rta_jitter_aware, _rta_jitter_aware, bound_response_times"]}
{"id": "C08", "title": "Uniprocessor fixed-priority RTA is exact (tight)", "statement": "Without blocking and suspension, the response time recorded for a task is the smallest value satisfying the recurrence, and it is attained by the first job when all tasks release their first job simultaneously (each after its maximal jitter) and run for their full cost; a False verdict means that job really misses its deadline.", "quantifier": "every constrained-deadline task set in priority order, every fixed-priority schedule of the synchronous periodic job sequence", "why_tests_cant": "Needs a comparison with every schedule and every candidate fixed point.", "anchors": ["schedcat/sched/fp/rta.py: _rta_jitter_aware, bound_response_times"]}
{"id": "C09", "title": "Uniprocessor RTA always terminates and is sustainable", "statement": "bound_response_times always terminates; a schedulable task set stays schedulable, with response times not larger, when costs, jitters or blocking terms shrink or periods grow.", "quantifier": "every task set with positive periods and costs, every componentwise easier task set", "why_tests_cant": "Termination and monotonicity range over all parameters; a fixed-point loop may diverge on untested inputs.", "anchors": ["schedcat/sched/fp/rta.py: _rta_jitter_aware, bound_response_times"]}
{"id": "C10", "title": "A True verdict of fixed-priority RTA implies response_time <= deadline", "statement": "Whenever fp.rta.bound_response_times returns True each recorded response_time is at most the relative deadline. (True without jitter; the loop ignores the task's own jitter, so it is false in general.)", "quantifier": "every task set including ones with release jitter", "why_tests_cant": "Tests never combine jitter with a response time close to the deadline.", "anchors": ["schedcat/sched/fp/rta.py: _rta_jitter_aware"]}
{"id": "C11", "title": "QPA decides the processor-demand criterion exactly", "statement": "QPATest(1).is_schedulable(ts) terminates and returns True exactly when total utilization is at most 1 and the summed dbf(t) is at most t for every t >= 0.", "quantifier": "every finite task set with positive costs, periods, deadlines (arbitrary deadlines), every interval length t", "why_tests_cant": "Unbounded number of interval lengths and task sets; QPA deliberately skips points.", "anchors": ["native/src/edf/qpa.cpp: QPATest::is_schedulable, get_largest_testpoint, edf_busy_interval, zhang_burns_interval"]}
{"id": "C12", "title": "A task set accepted by QPA meets all deadlines under EDF", "statement": "If QPA accepts a task set then no job misses its deadline in any preemptive work-conserving EDF uniprocessor schedule of any legal job sequence.", "quantifier": "every accepted task set, arrival sequence, execution times, EDF tie-breaking and schedule", "why_tests_cant": "Quantifies over all schedules.", "anchors": ["native/src/edf/qpa.cpp: QPATest::is_schedulable", "schedcat/sched/edf/__init__.py: is_schedulable"]}
{"id": "C13", "title": "A task set rejected by QPA is infeasible", "statement": "If QPA rejects a task set then there is a legal job sequence (all tasks released together, then periodically) for which every uniprocessor schedule misses a deadline.", "quantifier": "every rejected task set, every schedule whatever its policy", "why_tests_cant": "Quantifies over all schedules.", "anchors": ["native/src/edf/qpa.cpp: QPATest::is_schedulable"]}
{"id": "C14", "title": "C=D splitting returns a safe and maximal budget", "statement": "qpa_get_max_C_equal_D_cost(ts, wcet, period) terminates and returns the largest budget C <= wcet such that ts plus a task with cost C, deadline C and the given period satisfies the processor-demand criterion (0 if there is none).", "quantifier": "every task set that is schedulable on its own, every wcet and period", "why_tests_cant": "Optimality ranges over all smaller and larger budgets and all interval lengths.", "anchors": ["native/src/edf/qpa.cpp: qpa_get_max_C_equal_D_cost, find_feasible_cost_fixpoint", "schedcat/mapping/apa.py"]}
{"id": "C15", "title": "The GFB density test is sound for global EDF", "statement": "If gfb.is_schedulable(m, ts) returns True for constrained deadlines, no job misses its deadline in any work-conserving preemptive global EDF schedule on m processors.", "quantifier": "every m, task set, legal job sequence, execution times, tie-breaking and schedule", "why_tests_cant": "Quantifies over all multiprocessor schedules.", "anchors": ["schedcat/sched/edf/gfb.py: is_schedulable", "native/src/edf/gfb.cpp: GFBGedf::is_schedulable"]}
{"id": "C16", "title": "The BCL test is sound for global EDF", "statement": "If bcl.is_schedulable(m, ts) returns True for a set of constrained-deadline tasks with cost <= deadline, no job misses its deadline in any work-conserving preemptive global EDF schedule on m processors.", "quantifier": "every m, constrained-deadline feasible task set, legal job sequence and schedule (without cost <= deadline the claim is refuted: the test does not check it)", "why_tests_cant": "Quantifies over all multiprocessor schedules.", "anchors": ["schedcat/sched/edf/bcl.py", "native/src/edf/bcl.cpp"]}
{"id": "C17", "title": "Python and native versions of a schedulability test agree", "statement": "The Python and the C++ implementation of GFB, BAK, BCL, iterative BCL and the EDF response-time analysis return the same verdict, and outside their preconditions (cost <= deadline and period, constrained deadlines, not over-utilized) the C++ versions return False.", "quantifier": "every processor count, round limit and minimum step, and every task set meeting the preconditions (BAK with arbitrary deadlines is refuted)", "why_tests_cant": "Agreement on all inputs cannot be sampled; the implementations differ in early exits and arithmetic.", "anchors": ["schedcat/sched/edf/gfb.py", "schedcat/sched/edf/bak.py", "schedcat/sched/edf/bcl.py", "native/src/edf/gfb.cpp", "native/src/edf/baker.cpp", "native/src/edf/bcl.cpp"]}
{"id": "C18", "title": "The iterative global EDF tests terminate with consistent bounds", "statement": "For tasks with cost <= deadline <= period, bcl_iterative terminates for every round limit and the EDF response-time analysis terminates for every positive round limit (or a minimum step of at most one); per-task slack stays within [0, deadline - cost], and a True verdict records response times between cost and deadline that no job exceeds in any global EDF schedule. Without cost <= deadline the analysis can loop forever.", "quantifier": "every m, task set with feasible tasks, round limit and min_delta", "why_tests_cant": "Fixed-point loops over unbounded parameters.", "anchors": ["schedcat/sched/edf/bcl_iterative.py", "schedcat/sched/edf/rta.py"]}
{"id": "C19", "title": "The combined EDF test accepts only what one of its component tests accepts", "statement": "edf.is_schedulable_py never accepts a task set that is over-utilized or has a task with cost > period, accepts the empty set, accepts only sets that meet all deadlines in every global EDF schedule of every legal arrival sequence if cost <= deadline <= period (Baker's, Baruah's, GFB, RTA and FF-DBF tests alike, with FF-DBF's changes of sigma on the way), terminates on such sets, gives the same verdict for every order of the tasks unless RTA is involved (for a step of 2 the verdict depends on the order), and every acceptance is justified by the uniprocessor density bound or by one of the component tests whose precondition (constrained deadlines) holds.", "quantifier": "every m, task set, selection of component tests", "why_tests_cant": "Ranges over all combinations of inputs and test selections.", "anchors": ["schedcat/sched/edf/__init__.py: is_schedulable_py", "schedcat/sched/edf/bak.py: is_schedulable", "schedcat/sched/edf/bar.py: is_schedulable", "schedcat/sched/edf/ffdbf.py: is_schedulable"]}
{"id": "C20", "title": "Bin packing never exceeds the capacity of a bin", "statement": "After next_fit, first_fit, worst_fit, best_fit and the decreasing variants, the items put into a bin never sum to more than the capacity (for a fixed number of bins).", "quantifier": "every item list, weight function, capacity and bin count", "why_tests_cant": "Unbounded item lists.", "anchors": ["schedcat/mapping/binpack.py: next_fit, first_fit, worst_fit, best_fit, decreasing"]}
{"id": "C21", "title": "Bin packing loses and duplicates no item", "statement": "Every item given to first_fit, worst_fit, best_fit or a decreasing variant ends up in exactly one bin or is passed exactly once to the misfit callback (next_fit silently drops items after the first misfit).", "quantifier": "every item list, weight function, capacity and bin count", "why_tests_cant": "Unbounded item lists.", "anchors": ["schedcat/mapping/binpack.py"]}
{"id": "C22", "title": "Bin packing heuristics follow their selection rule", "statement": "first_fit, worst_fit and best_fit report a misfit only if the item fits into no bin at that moment; otherwise they use respectively the first, the least loaded, the most loaded bin that fits; decreasing variants consider items in non-increasing weight.", "quantifier": "every item list, weight function, capacity, bin count and prefix of the run", "why_tests_cant": "Unbounded histories.", "anchors": ["schedcat/mapping/binpack.py: first_fit, worst_fit, best_fit, decreasing"]}
{"id": "C23", "title": "Transactional bins are all-or-nothing", "statement": "For bins with acceptance checks, a rejected item leaves the bin's contents and remaining capacity exactly as before, and every committed state satisfies the acceptance checks and the capacity.", "quantifier": "every sequence of additions, every acceptance predicate", "why_tests_cant": "Quantifies over all operation histories.", "anchors": ["schedcat/mapping/rollback.py: Bin, BasicBin, transaction handling, heuristics"]}
{"id": "C24", "title": "RUN reduction terminates, keeps the rates and runs exactly the processors' worth of servers", "statement": "For servers with rates in [0,1], reduce() terminates after a number of levels logarithmic in the number of processors; it only adds one slack server to reach an integral total; each level consists of the complements of a partition of the previous level into groups of total rate at most one, with rates in [0,1] and integral, strictly decreasing totals; the final servers have rate one and the deadlines of all their clients; and whichever clients the servers pick at an instant, exactly ceil(total rate) servers of the first level execute.", "quantifier": "every list of servers with rates in [0,1], every choice of clients in the resulting server tree", "why_tests_cant": "Unbounded recursion over arbitrary task sets.", "anchors": ["schedcat/sched/run.py"]}
{"id": "C25", "title": "Overhead accounting never makes a task set look easier", "statement": "Successful overhead charging (JLFP, FP, P-fair) never decreases a cost and never increases a period or deadline, and with all overheads zero it leaves costs, periods and deadlines unchanged; tasks whose cost no longer fits are rejected.", "quantifier": "every task set and every non-negative overhead model", "why_tests_cant": "Quantifies over arbitrary overhead functions and task sets.", "anchors": ["schedcat/overheads/jlfp.py", "schedcat/overheads/fp.py", "schedcat/overheads/pfair.py", "schedcat/overheads/quanta.py"]}
{"id": "C26", "title": "Quantum-based parameters are multiples of the quantum in the safe direction", "statement": "Quantization rounds costs up and periods/deadlines down to quantum multiples, within one quantum of the original; a parameter that would vanish is reported.", "quantifier": "every positive quantum length and task set", "why_tests_cant": "Unbounded parameters.", "anchors": ["schedcat/overheads/quanta.py"]}
{"id": "C27", "title": "Monotonic piece-wise linear overheads dominate their samples and never decrease", "statement": "monotonic_pwlin(points) yields a function that is non-decreasing, is at least every sample value at its sample point, and is the least such: at each sample it equals the running maximum of the samples.", "quantifier": "every non-empty list of samples with increasing x and non-negative y, every evaluation point", "why_tests_cant": "Real-valued inputs, unbounded sample lists.", "anchors": ["schedcat/util/math.py: make_monotonic, monotonic_pwlin, PieceWiseLinearEqu"]}
{"id": "C28", "title": "bound_blocking is the exact worst case over request selections", "statement": "For a contention set sorted by request length, bound_blocking returns the maximum total length and count over all selections of requests that respect the number of jobs a sporadic source can have pending in the interval, the per-source cap and the total cap, and that contain no request of an excluded task. The number of pending jobs it assumes is the exact maximum over all sporadic job sequences with the given response-time bound. The bound of the k-exclusion variant covers every selection with limits per source, per cluster and overall.", "quantifier": "every contention set, interval, caps and excluded task, every admissible selection, every sporadic job sequence", "why_tests_cant": "Exponential number of selections, unbounded sets.", "anchors": ["native/src/sharedres.cpp: bound_blocking, get_max_num_jobs, sort_by_request_length", "native/src/blocking/clust-omlp.cpp: add_blocking, bound_blocking"]}
{"id": "C29", "title": "The FIFO spin-lock bound is safe for every execution and grows with contention", "statement": "In every execution of FIFO spin locks with non-preemptive spinning (each processor has at most one outstanding request, lock handed over immediately), the total time a job spins is at most the remote blocking reported by task_fair_mutex_bounds, each request takes at most the reported request span, and the total blocking covers the spinning plus one non-preemptive request of a local task without higher priority. The bounds grow with request counts, request lengths, response times, additional tasks and processors, and are zero for resources no other task uses. msrp_bounds_holistic splits resources into local and global ones correctly and adds the larger of the local ceiling blocking and the spin-based arrival blocking.", "quantifier": "every task set with resource requests, every legal FIFO execution and sporadic arrival pattern, every componentwise larger problem", "why_tests_cant": "Unbounded executions and inputs.", "anchors": ["native/src/sharedres.cpp: np_fifo_per_resource, bound_blocking_all_clusters, charge_arrival_blocking, get_local_resources, extract_resources", "native/src/blocking/clust-omlp.cpp: clustered_omlp_bounds, task_fair_mutex_bounds", "native/src/blocking/msrp-holistic.cpp"]}
{"id": "C30", "title": "Group locks are the connected components of nesting", "statement": "After identify_group_locks, two resources share a group lock exactly when they are connected by a chain of nested critical sections.", "quantifier": "every set of tasks with arbitrarily deep nested critical sections", "why_tests_cant": "Transitive closure over unbounded structures.", "anchors": ["schedcat/model/resources.py"]}
{"id": "C31", "title": "Independent task subsets share no resource", "statement": "locking.partition.find_independent_tasksubsets reports subsets whose members are linked by chains of shared resources; if no task uses more than one resource the subsets are exactly the classes of dependent tasks. The general promise (every task in exactly one subset, dependent tasks together) is false: merging of components leaves stale aliases, whatever the iteration order.", "quantifier": "every task set and access pattern", "why_tests_cant": "Needs a particular order of accesses to show the aliasing defect.", "anchors": ["schedcat/locking/partition.py"]}
{"id": "C32", "title": "Critical-section bookkeeping matches the nesting tree", "statement": "all()/iteration visits each critical section exactly once, outer sections before inner ones; total lengths add up; the order check accepts exactly the forests whose directly nested sections have larger resource ids, which rules out cyclic waiting and reentrance; building sections through the interface never creates a reentrant request; flat listings carry the index of the enclosing section; request counts add up.", "quantifier": "every nesting forest", "why_tests_cant": "Unbounded trees.", "anchors": ["schedcat/model/resources.py"]}
{"id": "C33", "title": "XML serialization round-trips tasks, task sets and test points", "statement": "Loading a written task, task set or test point succeeds and reproduces, in order, cost, period, deadline, id, partition, working set size, affinity mask, resource requirements (counts and lengths) and nested critical sections of every task, and all parameters, whenever the integers are binary64 numbers, text values cannot be read as numbers and no section is nested in one of the same resource; a second round trip changes nothing; tasks that differ have different files; writing a task set fails exactly if some utilization or density is undefined; an integer survives exactly if it is a binary64 number. Not preserved: response times, request priorities, empty masks.", "quantifier": "every task, task set and test point with any number of tasks, requests and any nesting depth", "why_tests_cant": "Unbounded task sets and nesting; all integers.", "anchors": ["schedcat/model/serialize.py:task", "schedcat/model/serialize.py:taskset", "schedcat/model/serialize.py:testpoint", "schedcat/model/serialize.py:load", "schedcat/model/serialize.py:maybe_int"]}
{"id": "C34", "title": "Task generators respect their caps", "statement": "For every sequence of random numbers: a generated task set never exceeds the requested utilization cap or task count; the k-th task is the one of the k-th draw, with positive parameters, and only the last one may be squeezed, to a smaller cost; generation stops only when a cap is reached, would be exceeded by the next task, or is filled up to one time unit by squeezing; it terminates if the number of tasks or the periods are bounded; feasible draws give cost <= period, cost <= deadline and the named kind of deadline; every distribution stays in its range, so that all named generators yield feasible tasks with periods from 3 to 250. The fixed-sum generator returns n utilizations in [0,1] with exactly the requested sum (if less than n), and the wrapper's integral tasks have the drawn utilization up to one time unit. (Refuted: exact squeezing, positive cost after squeezing, a requested sum of n, a random number of exactly 0, period ranges not aligned with the granularity.)", "quantifier": "every stream of random draws, every cap, conversion of times and deadline rule; every transition table index and permutation", "why_tests_cant": "Randomised code: all draws must be covered.", "anchors": ["schedcat/generator/tasks.py:TaskGenerator.tasks", "schedcat/generator/tasks.py", "schedcat/generator/tasksets.py", "schedcat/generator/generator_emstada.py:StaffordRandFixedSum", "schedcat/generator/generator_emstada.py:gen_taskset"]}
{"id": "C35", "title": "CAN response-time analysis: fixed point, termination, and safety", "statement": "get_wctt terminates; if the returned bound meets the deadline it is the least solution of the response-time recurrence, otherwise no solution meets the deadline; is_schedulable decides exactly this and is monotone in the number of faults; the cached variant returns the same values. On every priority-driven bus with at most that many faults, the first instance of a message in a busy period is transmitted within the bound. (For later instances the bound is refuted by a counterexample.)", "quantifier": "every bus, message set, priority assignment, number of faults, query order; every bus execution, arrival sequence and fault pattern", "why_tests_cant": "Unbounded parameters; the worst-case arrival pattern and fault placement cannot be enumerated.", "anchors": ["schedcat/model/canbus.py:CANMessageSet.get_wctt", "schedcat/model/canbus.py:CANMessageSet.get_wctt_fast", "schedcat/sched/canbus/broster.py:is_schedulable"]}
{"id": "C36", "title": "The EDF simulator produces legal global EDF schedules and reports what happens in them", "statement": "For any tie-breaking rule, a simulation ends, and there is a global EDF schedule (preemptive or non-preemptive as requested) of the synchronous periodic job sequence on m processors such that: a reported deadline miss is a job of that schedule that completes late, the earliest such completion, and its deadline is the reported time of first violation; if no miss is reported then no job that completes by the end of the simulation is late; the tardiness statistics count exactly the jobs that complete by the end of the simulation or at the first event after it, with their exact number, total, maximum and first miss. Hence a miss under preemptive EDF refutes schedulability and no schedulable task set is reported to miss. False of the Python wrapper for preemptive=False, and a miss of a job that is unfinished at the end goes unnoticed.", "quantifier": "every task set with positive costs and periods, processor count, simulation length, tie-breaking rule, both modes", "why_tests_cant": "Unbounded executions; the schedule is never returned, only its summary.", "anchors": ["native/include/schedule_sim.h:GlobalScheduler", "native/src/schedule_sim.cpp:run_periodic_simulation", "native/src/edf/sim.cpp", "schedcat/sim/edf.py"]}
{"id": "C37", "title": "The Pfair schedulability test is exact for quantum-based scheduling", "statement": "pfair.is_schedulable accepts a task set with deadlines no shorter than periods exactly if every legal sporadic job sequence can be scheduled in unit quanta on m processors without a deadline miss; bound_response_times returns true exactly if every job can complete within one period, and then records the period as response time of every task, otherwise nothing.", "quantifier": "every m, every task set with positive periods, every legal sporadic job sequence, every horizon", "why_tests_cant": "Existence of a schedule for each of infinitely many job sequences.", "anchors": ["schedcat/sched/pfair.py"]}
{"id": "C38", "title": "GEL response-time bounds are safe, exist whenever possible, and the exact variant is tightest", "statement": "If compute_response_details (Python or native; exact or with any number of binary-search rounds) returns bounds for a set that is not over-utilized, every job of every task of every global schedule by these priority points (G-EDF, G-FL, or any other) completes within the bound of its task after its arrival. The analysis returns None exactly if no bounds exist at all, always terminates, the exact algorithm yields the smallest value that satisfies the compliance condition, and the binary search converges to it from above. (The uniprocessor shortcut and the native code do not check for overload and are unsafe then; the native code replaces a priority point of 0.)", "quantifier": "every number of processors, every sporadic task set, all priority points, every number of rounds, every legal release sequence, every schedule with any tie-breaking", "why_tests_cant": "Quantifies over infinitely many infinite schedules; the search has no a-priori bound.", "anchors": ["schedcat/sched/edf/gel_pl.py:compute_response_details", "schedcat/sched/edf/gel_pl.py:compute_gfl_response_details", "schedcat/sched/edf/gel_pl.py:compute_gedf_response_details", "schedcat/sched/edf/gel_pl.py:bound_response_times", "native/src/edf/gel_pl.cpp:GELPl"]}
{"id": "C39", "title": "EDF response-time analysis (Guan and Yi) is safe", "statement": "If approx_wcrt or exact_wcrt assigns response times, no job of any EDF schedule of any legal release sequence takes longer than the response time of its task; exact_wcrt is never above approx_wcrt and never below one job of every task with no later deadline; every response time is within its deadline exactly if no interval has more demand than time; both functions end whenever the utilization is below one. (False with equal deadlines other than the two smallest; at utilization one the functions do not end.)", "quantifier": "every sporadic task set, every legal release sequence, every EDF schedule", "why_tests_cant": "Quantifies over all release sequences, and the defect needs equal deadlines or full utilization to show.", "anchors": ["schedcat/sched/edf/gy_rta.py:approx_wcrt", "schedcat/sched/edf/gy_rta.py:exact_wcrt", "schedcat/sched/edf/gy_rta.py:find_L_prime"]}
{"id": "C40", "title": "Affinity-aware partitioning respects affinities, conserves work and is safe", "statement": "Every worst-fit and first-fit (semi-)partitioning heuristic terminates without an exception. Every given task is reported unassigned, placed whole, or split into C=D chunks followed by the rest; every piece is on a processor of the task's affinity, chunks and rests respect the minimum size, costs and deadlines of the pieces sum to those of the task, and pre-assigned tasks stay. Every processor stays EDF-schedulable, so that at run time each piece completes before the next is released and every job meets its deadline. No unassigned task (nor, for worst fit, a chunk of it) would fit on a processor of its affinity.", "quantifier": "every task set, affinity assignment, pre-assignment, minimum chunk size, set iteration order and heuristic; every legal arrival sequence and EDF schedule", "why_tests_cant": "Unbounded search histories and iteration orders, and infinitely many schedules.", "anchors": ["schedcat/mapping/apa.py:edf_worst_fit_decreasing_difficulty", "schedcat/mapping/apa.py:edf_first_fit_decreasing_difficulty", "schedcat/mapping/apa.py:double_wfd_split", "schedcat/mapping/apa.py:edf_assign_wfd_wfd_split", "schedcat/mapping/apa.py:meta_preassign_failures"]}
{"id": "C41", "title": "Robust CAN priority assignment is sound, optimal and robust", "statement": "set_priorities_david_and_burns changes only priorities, assigns 1..n in some order, and every message is schedulable afterwards; it fails exactly if no assignment of distinct priorities makes all messages schedulable; and if some assignment lets every message tolerate f retransmissions, so does the computed one. The binary search finds the largest tolerated number of retransmissions.", "quantifier": "every bus, every message set, every competing priority assignment, every number of faults", "why_tests_cant": "Optimality is a statement about all n! assignments of every message set.", "anchors": ["schedcat/sched/canbus/prio_assign.py:set_priorities_david_and_burns"]}
{"id": "C42", "title": "Period transformation preserves guarantees", "statement": "Transforming a task into k subjobs never lowers its demand, gives the job its full cost and completes it by its deadline, provided deadlines are at least periods. meta_reduce_periods returns a correct assignment of the given tasks or transformations of them.", "quantifier": "every task, every number of subjobs, every list of candidate periods, every interval length", "why_tests_cant": "Demand must be dominated at every interval length, for all parameters.", "anchors": ["schedcat/model/tasks.py:SporadicTask.period_transform", "schedcat/mapping/apa.py:meta_reduce_periods"]}
{"id": "C43", "title": "Devi-Anderson tardiness bounds exist exactly if possible and are safe", "statement": "task_tardiness_bound returns None exactly if the set is over-utilized or a task has a cost above its period; otherwise bound_response_times assigns response times that no job of a preemptive G-EDF schedule exceeds. (The bound for non-preemptive scheduling is too small, on one and on several processors.)", "quantifier": "every number of processors, every implicit-deadline task set, every legal release sequence, every schedule", "why_tests_cant": "Quantifies over infinitely many infinite schedules.", "anchors": ["schedcat/sched/edf/da.py:task_tardiness_bound", "schedcat/sched/edf/da.py:tardiness_x", "schedcat/sched/edf/da.py:np_tardiness_x", "schedcat/sched/edf/da.py:bound_response_times"]}
{"id": "C44", "title": "Combined EDF response-time bounds are safe, exact for implicit deadlines, and terminate", "statement": "edf.bound_response_times records, whenever it returns True on constrained deadlines, response times that no job exceeds in any global EDF schedule, and response times within the deadlines if the set passes the schedulability test; for implicit deadlines it returns True exactly if any finite bounds exist; for other deadlines it never returns False (it returns True or raises AssertionError); it terminates on feasible sets. (With deadlines beyond the period the recorded bounds can be wrong.)", "quantifier": "every number of processors, task set, selection of component tests, release sequence and schedule", "why_tests_cant": "Quantifies over infinitely many infinite schedules, and over all inputs on which different analyses take over.", "anchors": ["schedcat/sched/edf/__init__.py:bound_response_times", "schedcat/sched/edf/rta.py:bound_response_times", "schedcat/sched/edf/da.py:bound_response_times"]}
{"id": "C45", "title": "Bertogna's global fixed-priority response times are safe, also with blocking", "statement": "If fp.bertogna.is_schedulable returns True for constrained deadlines, every job of every task completes within the recorded response_time, which is at most the deadline, in every global fixed-priority schedule on num_cpus processors in which jobs are blocked for at most the given blocking terms; with and without dont_use_slack. It always terminates. The recorded value is the least fixed point, and using slack never makes a bound larger. (With deadlines beyond the period it accepts overloaded sets.)", "quantifier": "every number of processors, task set, blocking terms, release sequence, execution times and schedule", "why_tests_cant": "Quantifies over infinitely many infinite schedules.", "anchors": ["schedcat/sched/fp/bertogna.py:is_schedulable", "schedcat/sched/fp/bertogna.py:rta_schedulable", "schedcat/sched/fp/bertogna.py:slack_aware_workload_function"]}
{"id": "C46", "title": "Guan's global fixed-priority response times are safe and the fp tests dispatch correctly", "statement": "If fp.guan.is_schedulable (and fp.is_schedulable on two or more processors) returns True, every job completes within the recorded response_time, which is at most the deadline, in every global fixed-priority schedule; the analysis always terminates, raises AssertionError only for a deadline beyond the period, and accepts every set that Bertogna's analysis accepts, with response times at most as large. fp.is_schedulable on one processor is the uniprocessor analysis.", "quantifier": "every number of processors, task set, release sequence, execution times and schedule", "why_tests_cant": "Quantifies over infinitely many infinite schedules; dominance is a statement about all task sets.", "anchors": ["schedcat/sched/fp/guan.py:is_schedulable", "schedcat/sched/fp/guan.py:total_interference", "schedcat/sched/fp/__init__.py:is_schedulable"]}
{"id": "C47", "title": "Phase-fair reader-writer bounds cover every execution", "statement": "For every task set with at most one read and one write bound per task and resource, phase_fair_rw_bounds (and clustered_rw_omlp_bounds, the same analysis) returns for every task a blocking term that is at least the total time any of its jobs spins for all its read and write requests in any execution of phase-fair locks with sporadic jobs that meet the assumed response times; the request span is at least the time from the issue to the completion of any single request; the arrival blocking covers one request of a local task of lower or equal priority. Without conflicting requests of other tasks the bound is zero.", "quantifier": "all task sets, cluster sizes, interrupt clusters, all executions that follow the phase-fair rules (writers in FIFO order, readers wait for at most one writer phase, a reader does not join a reader phase while a writer waits), all jobs and resources", "why_tests_cant": "a test runs one analysis on one set; the claim is about every interleaving of readers and writers on every number of processors", "anchors": ["native/src/blocking/rw-phase-fair.cpp:phase_fair_rw_bounds", "native/src/blocking/rw-phase-fair.cpp:pf_writer_fifo", "native/src/blocking/rw-phase-fair.cpp:pf_reader_all", "native/src/sharedres.cpp:merge_rw_requests", "native/src/sharedres.cpp:split_by_type", "schedcat/locking/bounds.py:apply_phase_fair_rw_bounds"]}
{"id": "C48", "title": "Task-fair reader-writer bounds cover every execution", "statement": "For every task set and its mutex equivalent, task_fair_rw_bounds returns for every task a blocking term that is at least the total spinning of any job in any execution of task-fair (FIFO, consecutive readers share) locks, and a request span that is at least the time from issue to completion of a request; the blocking term is never larger than the bound of a mutex lock. The request counting with limits per task, per cluster and overall is the exact worst case over all selections that respect the limits.", "quantifier": "all task sets, cluster sizes, interrupt clusters, all task-fair executions, all jobs and resources; all selections of interfering requests", "why_tests_cant": "the bound is a minimum of two analyses, and its safety depends on every queue order and every overlap of readers", "anchors": ["native/src/blocking/rw-task-fair.cpp:task_fair_rw_bounds", "native/src/blocking/rw-task-fair.cpp:bound_blocking_all", "native/src/blocking/rw-task-fair.cpp:tf_reader_all", "schedcat/locking/bounds.py:apply_task_fair_rw_bounds", "schedcat/locking/bounds.py:get_cpp_model_rw"]}
{"id": "C49", "title": "LP variables of the blocking analyses are never confused", "statement": "While a blocking LP is built, two lookups of a variable return the same index exactly if they name the same request of the same task for the same resource with the same kind of blocking, earlier indices never change, and get_num_vars bounds all indices, provided each task has fewer than 2^20 requests per resource in the analysed interval; hence the optimum of the generated program is the optimum of the intended one. (The assertion admits 2^22 requests, for which different requests share a variable.)", "quantifier": "all sequences of lookups, all task, resource and request numbers, all linear programs", "why_tests_cant": "the collision needs more than a million requests; injectivity is a statement about all pairs of variables", "anchors": ["native/include/lp_common.h:VarMapper", "native/include/linprog/varmapperbase.h:VarMapperBase", "native/include/linprog/model.h:LinearProgram"]}
{"id": "C50", "title": "LP-based MSRP bounds and the resulting response times are safe", "statement": "If the optimum of the linear program that lp_pfp_msrp_bounds builds is used as the blocking term of each task, and the response time R_i of each task satisfies C_i + B_i + sum of ceil(R_i/T_h) C_h over local higher-priority tasks <= R_i <= T_i for the response times given to the analysis, then every job completes within R_i of its release in every partitioned fixed-priority schedule that uses FIFO spin locks (spinning and executing without preemption) for global resources and the priority ceiling protocol for local ones; in every level-i busy window of length at most R_i, the time lost to spinning and to lower-priority jobs is at most B_i. The program is always feasible.", "quantifier": "all task sets with distinct priorities per processor and at most one request bound per task and resource, all legal release sequences, request patterns, queue orders and schedules, all optimal solutions", "why_tests_cant": "quantifies over infinitely many infinite schedules, and the bound is defined by an optimum over all real vectors", "anchors": ["native/src/blocking/linprog/lp_spinlock_msrp.cpp:lp_pfp_msrp_bounds", "native/src/blocking/linprog/lp_spinlock_msrp.cpp:apply_msrp_bounds_for_task", "native/src/blocking/linprog/lp_spinlocks.cpp:add_common_spinlock_constraints", "native/src/blocking/linprog/lp_spinlocks.cpp:set_spinlock_blocking_objective", "schedcat/locking/bounds.py:apply_pfp_lp_msrp_bounds"]}
{"id": "C51", "title": "LP-based baseline spin-lock bounds are safe for every queue order", "statement": "The same guarantee holds for lp_pfp_baseline_spinlock_bounds and non-preemptive spin locks that serve waiting requests in any order, as long as a waiting request implies that some request holds the lock. The baseline bound is never smaller than the MSRP bound.", "quantifier": "all task sets as in C50, all schedules, all orders in which waiting requests are served", "why_tests_cant": "quantifies over all queue orders and infinite schedules", "anchors": ["native/src/blocking/linprog/lp_spinlocks.cpp:lp_pfp_baseline_spinlock_bounds", "native/src/blocking/linprog/lp_spinlocks.cpp:apply_baseline_bounds_for_task", "native/src/blocking/linprog/lp_spinlocks.cpp:add_common_transitive_contention_window_constraints", "schedcat/locking/bounds.py:apply_pfp_lp_baseline_spinlock_bounds"]}
{"id": "C52", "title": "LP-based bounds for unordered spin locks are safe, and their wait-time search ends", "statement": "The search for a bound on the wait for one request always ends, with a bound or above the period. If it returns a positive bound w, no request of the task's processor waits longer than w for a global resource, whatever the order in which waiting requests are served. The response-time guarantee of C50 holds with the blocking terms of lp_pfp_unordered_spinlock_bounds (non-preemptive spinning) for every service order. The program is always feasible and its optimum is never above the baseline's.", "quantifier": "all task sets as in C50, all schedules, all service orders, all requests", "why_tests_cant": "the search loop has no iteration limit, and the bound is over all service orders and infinite schedules", "anchors": ["native/src/blocking/linprog/lp_spinlock_unordered.cpp:lp_pfp_unordered_spinlock_bounds", "native/src/blocking/linprog/lp_spinlock_unordered.cpp:bound_wait_time", "native/src/blocking/linprog/lp_spinlock_unordered.cpp:add_unordered_direct_blocking_constraints", "schedcat/locking/bounds.py:apply_pfp_lp_unordered_bounds"]}
{"id": "C53", "title": "LP-based bounds for priority-ordered spin locks: when they are safe, and when not", "statement": "The wait-time search always ends. The response-time guarantee of C50 holds for spin locks that serve waiting requests by locking priority, with the blocking terms of lp_pfp_prio_spinlock_bounds (non-preemptive spinning) for all tasks on processors whose requests for a resource have one locking priority that is not the lowest, and those of lp_pfp_unordered_spinlock_bounds for the others. Without these conditions it fails: on the processor with the lowest locking priority only one request per remote task is counted (also if the priorities are dropped, as they are when called through get_cpp_model), and arrival blocking by a local task of lower locking priority is underestimated.", "quantifier": "all task sets as in C50, all locking priorities, all schedules and priority-ordered services; for the failures, concrete task sets and schedules in which a job exceeds its response-time bound", "why_tests_cant": "quantifies over all service orders that respect the priorities and infinite schedules; the failures need a schedule with back-to-back remote requests", "anchors": ["native/src/blocking/linprog/lp_spinlock_prio.cpp:lp_pfp_prio_spinlock_bounds", "native/src/blocking/linprog/lp_spinlock_prio.cpp:bound_wait_time", "native/include/sharedres_types.h:add_request", "schedcat/locking/bounds.py:get_cpp_model"]}
{"id": "C54", "title": "LP-based bounds for priority-ordered spin locks with FIFO ties: when they are safe, and when not", "statement": "The wait-time search always ends. The response-time guarantee of C50 holds for spin locks that serve waiting requests by locking priority and in FIFO order among equals, with the blocking terms of lp_pfp_prio_fifo_spinlock_bounds, for tasks on processors with one locking priority per resource if it is the highest, or if the task itself requests the resource and so does a remote task of at most that priority. As called through get_cpp_model, which drops the priorities, the bounds are safe for FIFO locks and unsafe for priority-ordered ones; with the priorities they are unsafe for tasks that do not request the resource themselves.", "quantifier": "all task sets as in C50, all locking priorities, all schedules and services that respect the order; for the failures, concrete task sets and schedules", "why_tests_cant": "quantifies over all service orders and infinite schedules", "anchors": ["native/src/blocking/linprog/lp_spinlock_prio_fifo.cpp:lp_pfp_prio_fifo_spinlock_bounds", "native/src/blocking/linprog/lp_spinlock_prio_fifo.cpp:bound_wait_time", "native/include/sharedres_types.h:add_request", "schedcat/locking/bounds.py:get_cpp_model"]}
{"id": "C55", "title": "The native LA test for global EDF is safe for self-suspending tasks with constrained deadlines", "statement": "If native.LAGedf(m).is_schedulable(ts) returns true for tasks with deadlines not after their periods and tardiness thresholds of zero, every job finishes by its deadline in every global EDF schedule on m processors, no matter when its jobs suspend themselves, as long as each job is suspended for at most its declared time. The test ends, its time limit can only turn an acceptance into a rejection, and infeasible tasks are rejected. With a deadline after the period it accepts sets that miss deadlines.", "quantifier": "all task sets and processor counts, all legal job sequences, suspension patterns and global EDF schedules, all behaviours of the clock", "why_tests_cant": "quantifies over infinite schedules and adversarial suspensions; the failure shows up only after several periods", "anchors": ["native/src/edf/la.cpp:LAGedf", "native/src/edf/la.cpp:AllTestPoints", "native/include/edf/la.h:LAGedf"]}
{"id": "C56", "title": "The native Baruah test agrees with the Python one, and the combined native global EDF test is safe", "statement": "native.BaruahGedf(m).is_schedulable and edf.bar_test return the same verdict on every feasible task set with constrained deadlines unless the time limit is hit; an acceptance is safe even then, and the test ends. native.GlobalEDF(m).is_schedulable (m at least 2, all switches of BAK, GFB, RTA, Baruah and LA) accepts only sets with constrained deadlines that meet all deadlines in every global EDF schedule. With deadlines after the period the default configuration, as used by edf.is_schedulable, accepts sets that miss deadlines, and so does GlobalEDF(1).", "quantifier": "all task sets and processor counts, all legal job sequences and global EDF schedules, all behaviours of the clock, all switch settings", "why_tests_cant": "quantifies over infinite schedules; the two implementations enumerate different test points", "anchors": ["native/src/edf/baruah.cpp:BaruahGedf", "native/src/edf/gedf.cpp:is_schedulable", "schedcat/sched/edf/__init__.py:is_schedulable_cpp", "schedcat/sched/edf/bar.py:is_schedulable"]}
{"id": "C57", "title": "The native FF-DBF test agrees with the Python one, is safe and ends", "statement": "native.FFDBFGedf(m, epsilon_denom, sigma_granularity).is_schedulable returns the verdict of the Python FF-DBF test on every non-empty feasible task set with constrained deadlines; a set it accepts meets all deadlines in every global EDF schedule; the search ends. On the empty task set it has no defined result.", "quantifier": "all task sets, processor counts, epsilon and granularity, all legal job sequences and global EDF schedules", "why_tests_cant": "quantifies over infinite schedules; the two implementations enumerate the test points in different ways (priority queue, generators)", "anchors": ["native/src/edf/ffdbf.cpp:FFDBFGedf", "native/src/edf/ffdbf.cpp:AllTestPoints", "native/include/edf/ffdbf.h:FFDBFGedf", "schedcat/sched/edf/ffdbf.py:is_schedulable"]}
{"id": "C58", "title": "LOAD-based global EDF test is safe and its load is accurate", "statement": "The load that the native task set computes is never below demand divided by time, at any time, and exceeds the true load by at most the requested epsilon. A task set with constrained deadlines that native.LoadGedf accepts meets every deadline under preemptive global EDF. The combined native.GlobalEDF test with every sub-test enabled has the same guarantee on two or more processors. For deadlines beyond the period the LOAD test is not safe, although the combined test applies it there.", "quantifier": "every task set with constrained deadlines, every epsilon, every number of processors, every time instant, every legal arrival sequence and every global EDF schedule", "why_tests_cant": "the load is a supremum over infinitely many times and the guarantee ranges over all schedules", "anchors": ["native/src/edf/load.cpp: LoadGedf::is_schedulable", "native/src/tasks.cpp: TaskSet::approx_load, TaskSet::k_for_epsilon", "native/include/tasks.h: Task::approx_demand, Task::approx_load", "native/src/edf/gedf.cpp: GlobalEDF::is_schedulable"]}
{"id": "C59", "title": "Feasibility under processor affinities is decided exactly", "statement": "For implicit deadlines without self-suspension and tasks that may each run on at least one processor, native.apa_implicit_deadline_feasible returns a solution exactly if every legal sporadic job sequence has a schedule that keeps every job on its allowed processors and meets all deadlines. The fractions of a returned solution lie between 0 and 1, are 0 outside the affinity and add up to 1 for each task, and no processor is used beyond its capacity. A task that may not run anywhere is however accepted if a later task has a processor.", "quantifier": "every task set, every affinity, every legal arrival sequence, every migratory schedule of any granularity and every correct answer of the linear-program solver", "why_tests_cant": "feasibility quantifies over all schedules of infinite job sequences", "anchors": ["native/src/apa_feas.cpp: apa_implicit_deadline_feasible, add_task_service_constraints, add_cpu_capacity_constraints, CPUFractionVarMapper", "native/include/apa_feas.h: AffinityRestrictions, APAFeasibleSolution", "schedcat/sched/__init__.py: get_native_affinities"]}
{"id": "C60", "title": "The classic MSRP test for partitioned EDF is safe and decides its criterion", "statement": "Under partitioned EDF, with FIFO spin locks and non-preemptive spinning for resources shared across processors and the stack resource policy for the others, every job of a task set that pedf_msrp_classic_is_schedulable accepts finishes by its deadline. The test ends, and accepts exactly if on each processor and for every interval length the demand with inflated costs plus the longest arrival blocking fits in the interval. assign_edf_preemption_levels gives levels that order tasks exactly as their relative deadlines; with other levels, or if num_cpus does not cover all partitions, the test accepts task sets that miss deadlines.", "quantifier": "every task set with arbitrary deadlines, every number of processors and resources, every legal arrival sequence, every execution with its requests, every tie-breaking among equal deadlines, every interval length", "why_tests_cant": "the guarantee ranges over all executions and the criterion over infinitely many interval lengths", "anchors": ["native/src/edf/qpa_msrp.cpp: pedf_msrp_classic_is_schedulable, QPA_MSRPTest", "native/src/blocking/msrp.cpp: msrp_bounds, get_EDF_arrival_blocking", "schedcat/locking/bounds.py: pedf_msrp_classic_is_schedulable, assign_edf_preemption_levels"]}
{"id": "C61", "title": "The classic MSRP bounds are safe for partitioned fixed-priority response-time analysis", "statement": "After assign_fp_preemption_levels and apply_msrp_bounds, the response times that fp.rta.bound_response_times computes for the tasks of a processor are never exceeded, in any schedule with FIFO spin locks, non-preemptive spinning and the priority ceiling protocol for local resources; if every processor is accepted all deadlines are met. The remote bound is never below the time a job spins. The local bound is exactly the longest arrival blocking that the task set permits. If num_cpus does not cover all partitions the bounds are unsafe.", "quantifier": "every task set with distinct priorities per processor, every number of processors and resources, every legal arrival sequence and every execution with its requests", "why_tests_cant": "the guarantee ranges over all executions on several processors", "anchors": ["native/src/blocking/msrp.cpp: msrp_bounds, msrp_remote_bound, msrp_local_bound", "schedcat/locking/bounds.py: apply_msrp_bounds, assign_fp_preemption_levels", "schedcat/sched/fp/rta.py: bound_response_times"]}
{"id": "C62", "title": "The LP-based MSRP test for partitioned EDF is safe where numbers and local resources permit", "statement": "Under partitioned EDF, with FIFO spin locks and non-preemptive spinning for resources shared across processors, every job of a task set that lp_pedf_msrp_is_schedulable accepts finishes by its deadline, provided the answers of the linear-program solver are never below the optimum, tasks that share a local resource have the same relative deadline, and integers do not wrap around. Without the condition on local resources the test accepts task sets that miss deadlines, and so it does if an unsigned subtraction in the search for check points wraps around, even without resources.", "quantifier": "every task set with arbitrary deadlines, every number of processors and resources, every legal arrival sequence, every execution with its requests, every tie-breaking among equal deadlines, every solver that bounds the optimum", "why_tests_cant": "the guarantee ranges over all executions and over linear programs for infinitely many interval lengths", "anchors": ["native/src/blocking/linprog/lp_pedf_msrp.cpp: lp_pedf_msrp_is_schedulable, MSRP_LP", "native/src/blocking/linprog/lp_pedf_analysis.cpp: is_schedulable, QPA, last_check_point_before", "native/src/blocking/linprog/lp_pedf_spinlocks_common.cpp: PEDFBlockingAnalysisLP_Spinlocks", "schedcat/locking/bounds.py: pedf_msrp_is_schedulable"]}
{"id": "C63", "title": "The classic DPCP bounds are safe for distinct priorities and assigned resources", "statement": "Under the distributed priority ceiling protocol, with every resource served by agents on the processor assigned to it in the ResourceLocality, the time during which a job waits for requests to other processors never exceeds get_remote_blocking of native.dpcp_bounds, the time during which its own processor serves requests of other tasks never exceeds get_local_blocking, and if each of its resources is assigned to a processor all these delays together never exceed get_blocking_term. The guarantee needs distinct priorities: with equal ones the remote bound is too small. A resource without an assigned processor is left out of every bound.", "quantifier": "every task set with distinct priorities, every placement of resources, every legal job arrival sequence and every execution with its requests", "why_tests_cant": "the guarantee ranges over all executions on several processors with arbitrary interleavings of requests", "anchors": ["native/src/blocking/dpcp.cpp: dpcp_bounds, dpcp_remote_bound, dpcp_local_bound, bound_blocking_dpcp, split_by_locality", "native/include/sharedres_types.h: ResourceLocality", "schedcat/locking/bounds.py: apply_dpcp_bounds"]}
{"id": "C64", "title": "The partitioned FMLP+ bounds are safe, except for non-preemptive sections with local sharing", "statement": "Under the partitioned FMLP+ (FIFO queues, lock holders boosted in the order of their requests) the time during which a job waits for a resource held on another processor never exceeds get_remote_blocking of native.part_fmlp_bounds, with preemptive and with non-preemptive critical sections. All other pi-blocking never exceeds get_local_blocking, and all pi-blocking never exceeds get_blocking_term, if critical sections are preemptive or no other task on the job's processor uses one of its resources. With non-preemptive sections and such sharing the local and the total bound are too small.", "quantifier": "every task set on any number of processors, every legal job arrival sequence, every execution with its requests and every order of simultaneous events, as long as the counters fit into an unsigned int", "why_tests_cant": "the guarantee ranges over all executions on several processors with arbitrary interleavings of requests", "anchors": ["native/src/blocking/fmlp_plus.cpp: part_fmlp_bounds, pfmlp_count_direct_blocking, pfmlp_bound_remote_blocking, pfmlp_bound_np_blocking, pfmlp_bound_local_blocking", "schedcat/locking/bounds.py: apply_part_fmlp_bounds"]}
{"id": "C65", "title": "The classic MPCP bounds are safe for constrained response times and distinct priorities", "statement": "Under the multiprocessor priority ceiling protocol (priority queues, lock holders execute above all other jobs in the order of their remote ceilings), with or without virtual spinning, a job waits for locks at most get_remote_blocking() and is delayed by local jobs of lower priority at most get_local_blocking() time units; the total bounds both. mpcp_bounds() always returns and uses no index out of range. The bounds are exceeded if response times exceed periods, if tasks share a priority, or if a product does not fit into 32 bits.", "quantifier": "all resource-sharing task sets, legal releases, schedules, lock request times and jobs, both settings of virtual spinning", "why_tests_cant": "Waiting depends on interleavings of several processors over unbounded time, and on a fixed-point iteration; tests compare bounds for a few task sets.", "anchors": ["native/src/blocking/mpcp.cpp:mpcp_bounds", "native/src/blocking/mpcp.cpp:determine_gcs_response_times", "native/src/blocking/mpcp.cpp:mpcp_remote_blocking", "native/src/blocking/mpcp.cpp:mpcp_arrival_blocking", "native/src/blocking/mpcp.cpp:get_mpcp_ceilings"]}
{"id": "C66", "title": "Nested critical sections in the native model", "statement": "Handing the nested critical sections of a task set to the native code succeeds for every nesting; for each section the native code then finds exactly the resources held when it is requested, its outermost section and whether it contains others; the transitive nesting relation is computed in finitely many steps for every input and hash order, contains only resources linked by chains of nestings, and all of them if there is no cyclic nesting (in particular for well-ordered nestings). With cyclic nesting it is incomplete and depends on the hash order, and the test for a common outer resource of two sections gives wrong answers.", "quantifier": "all nesting forests, all task sets, all iteration orders of hash maps", "why_tests_cant": "the set of nesting forests and of hash orders is infinite; tests try a few small trees in one order", "anchors": ["native/src/blocking/nested_cs.cpp:build_trans_nest_rel", "native/src/blocking/nested_cs.cpp:CriticalSectionsOfTaskset::get_transitive_nesting_relationship", "native/src/blocking/nested_cs.cpp:CriticalSection::get_outer_locks", "native/src/blocking/nested_cs.cpp:CriticalSection::has_common_outer", "native/include/nested_cs.h:CriticalSectionsOfTask", "schedcat/locking/bounds.py:get_cpp_nested_cs_model"]}
{"id": "C67", "title": "The fault probabilities of the CAN analysis are exact", "statement": "broster.get_prob_poisson is the Poisson distribution. Asked about n faults, broster.get_prob_schedulable returns the probability that n is the first number such that at most n faults fall into the response-time window for n faults (0 if n faults are not tolerated), whatever numbers were asked about before; asked without a number the first time, it returns the sum of these probabilities; no assertion fails and the guards against values above 1 never act. broster.is_schedulable answers whether the deadline is met with n faults, if the fault rate is positive. Asking a second time without a number counts every probability twice, and with fault rate 0 is_schedulable denies what the analysis shows.", "quantifier": "all buses, message sets, fault rates, numbers of faults and histories of queries", "why_tests_cant": "the probability is a sum over all sequences of fault counts, and the cache makes answers depend on the whole history of queries", "anchors": ["schedcat/sched/canbus/broster.py:get_prob_poisson", "schedcat/sched/canbus/broster.py:get_prob_schedulable", "schedcat/sched/canbus/broster.py:is_schedulable"]}
{"id": "C68", "title": "The success probability of replicated CAN messages is exact", "statement": "prob_success.get_prob_schedulable ends and returns exactly the probability that, with every replica omitted independently at the omission rate, a Poisson-distributed number of faults within the deadline, and every timely replica corrupted independently, the correct timely replicas are a strict majority of the timely ones (sync) or of all replicas (otherwise); the result lies between 0 and 1, so the final cut-off never acts. powerset yields every subset of a non-empty list exactly once, including the empty one. get_prob_time_periodic never returns if asked about 0 replicas.", "quantifier": "all buses, message sets with distinct ids, replication factors, rates and boot times", "why_tests_cant": "the probability ranges over all omission patterns, fault numbers and corruption patterns", "anchors": ["schedcat/sched/canbus/prob_success.py:get_prob_schedulable", "schedcat/sched/canbus/prob_success.py:get_prob_time_periodic", "schedcat/sched/canbus/prob_success.py:get_prob_correct_sync", "schedcat/sched/canbus/prob_success.py:get_prob_correct_async", "schedcat/sched/canbus/prob_success.py:powerset", "schedcat/model/canbus.py:get_replication_factor"]}
{"id": "C69", "title": "FIT rates are close to, but always below, the true rate", "statement": "For every success probability p between 0 and 1, get_fit_rate returns less than the failures in time that belong to the mean number of activations up to a failure (which is 1/(1-p)), and at least p times that value. The rate is therefore not a safe upper bound, and it is not monotone: a less reliable message can be given a lower rate.", "quantifier": "all success probabilities strictly between 0 and 1, all periods", "why_tests_cant": "an inequality between transcendental functions on an interval, and the limit of a series", "anchors": ["schedcat/sched/canbus/prob_success.py:get_fit_rate"]}
{"id": "C70", "title": "The classic global PIP bounds are safe", "statement": "On m identical processors under preemptive fixed-priority scheduling with priority inheritance and priority-ordered wait queues, for every job and every point of its response time: the time since its release is at most its own execution, the blocking time reported by apply_classic_pip_bounds, and (unless its priority is among the m highest) one m-th of the work of higher-priority jobs that is not already in the blocking; the part reported as direct higher-priority blocking bounds the time it waits for critical sections of higher-priority jobs. Priorities must be distinct: with equal priorities the bound can be 0 for tasks that do block each other.", "quantifier": "all task sets with distinct priorities, constrained deadlines and 32-bit parameters; all numbers of processors; all executions in which no deadline was missed before, and all times", "why_tests_cant": "quantifies over all schedules with inheritance on any number of processors and all request histories", "anchors": ["native/src/blocking/global-pip.cpp:global_pip_bounds", "native/src/blocking/global-pip.cpp:Ihp_i_dsr", "native/src/blocking/global-pip.cpp:DB_i", "native/src/blocking/global-pip.cpp:Ilp_i", "schedcat/locking/bounds.py:apply_classic_pip_bounds"]}
{"id": "C71", "title": "A response-time analysis with the global PIP bounds is safe", "statement": "If Bertogna and Cirinei's response-time test, run with the attributes that apply_classic_pip_bounds sets, accepts a task set, and the response times it finds do not exceed those the bounds were computed for, then in every execution every job completes within the response time found for its task, and so by its deadline.", "quantifier": "all task sets, all numbers of processors, both variants of the test, all executions and all jobs", "why_tests_cant": "the test and the blocking bounds assume each other's results; only an argument over all executions shows that this is not circular", "anchors": ["schedcat/sched/fp/bertogna.py:is_schedulable", "schedcat/locking/bounds.py:apply_classic_pip_bounds", "native/src/blocking/global-pip.cpp:global_pip_bounds"]}
{"id": "C72", "title": "The P-PCP bounds: safe comparison in general, unsafe for 'reasonable' priorities", "statement": "ppcp_bounds without the 'reasonable' flag reports at least the global PIP bound plus, for each request of a task outside the m highest priorities, the longest possible delay by m distinct lower-priority holders of other resources; for the m highest priorities it equals the PIP bound. With the flag, which apply_classic_ppcp_bounds sets exactly if deadlines do not decrease after the first m tasks, a task without requests is reported as never blocked, whatever the other tasks do, which is wrong: there is an execution in which such a job is delayed by an inherited priority.", "quantifier": "all task sets, all numbers of processors, all choices of lower-priority requests; the counterexample is an execution", "why_tests_cant": "the claim is about every selection of blocking requests, and the error shows only against an execution, not in the code's own terms", "anchors": ["native/src/blocking/ppcp.cpp:ppcp_bounds", "native/src/blocking/ppcp.cpp:Ilp_i_ppcp", "native/src/blocking/ppcp.cpp:sus_i", "native/src/blocking/ppcp.cpp:m_largest_values", "schedcat/locking/bounds.py:is_reasonable_priority_assignment", "schedcat/locking/bounds.py:apply_classic_ppcp_bounds"]}
{"id": "C73", "title": "Removing zero variables from a linear program keeps its optimum", "statement": "For every LinearProgram whose constraint coefficients are all positive and that has a feasible solution, kill_non_positive_vars keeps the optimum, and evaluating the original objective with the Solution of the reduced program yields it. With zero or negative coefficients, without a feasible solution, or with bounds that have more than six decimals, the optimum that solve() finds can be smaller than the true one.", "quantifier": "all linear programs, all solvers that find optima, all solutions", "why_tests_cant": "quantifies over all programs and all feasible points of a polytope; a test compares one optimum", "anchors": ["schedcat/util/linprog.py:LinearProgram.kill_non_positive_vars", "schedcat/util/linprog.py:LinearProgram.solve_with_cplex", "schedcat/util/linprog.py:Solution.evaluate", "schedcat/util/linprog.py:filter_vars"]}
{"id": "C74", "title": "Linear programs with different prefixes can be merged and solved together", "statement": "If several LinearPrograms are each given their own prefix without underscores by apply_variable_prefix and are merged, the optimum of the result is the sum of their optima, and every optimal solution of the result contains an optimal solution of each. With underscores in prefixes variables of different programs can coincide.", "quantifier": "all lists of linear programs with optima, all prefixes, all optimal solutions", "why_tests_cant": "quantifies over all programs and all optimal solutions; name collisions depend on the user's strings", "anchors": ["schedcat/util/linprog.py:LinearProgram.apply_variable_prefix", "schedcat/util/linprog.py:LinearProgram.merge", "schedcat/util/linprog.py:apply_prefix"]}
{"id": "C75", "title": "The CAN simulator simulates a CAN bus", "statement": "For every set of periodic messages, every sequence of disturbances of the wire and of host failures and every order of equal elements in the queues, what the callbacks of CANBusScheduler observe is a run of a CAN bus: transmissions do not overlap, are never interrupted and last exactly the cost of the message; the bus never idles while a message waits and no message is overlooked when it gets free; a waiting message of the highest priority wins; a frame fails exactly if the wire is disturbed during its transmission and is then queued again; 3 time units pass after a success and 29 after an error. The simulation always ends.", "quantifier": "all message sets with positive costs and periods, all fault times, all tie-breaking orders, all lengths of the simulation", "why_tests_cant": "quantifies over all event interleavings, fault times and unbounded runs", "anchors": ["native/src/canbus/can_sim.cpp:CANBusScheduler::advance_time", "native/src/canbus/can_sim.cpp:CANBusScheduler::simulate_until", "native/src/canbus/can_sim.cpp:CANBusScheduler::is_retransmission", "native/src/canbus/can_sim.cpp:run_periodic_simulation"]}
{"id": "C76", "title": "Which instances of a message the CAN simulator transmits", "statement": "Each transmission carries the newest instance of the message as of one time unit after its start; instances succeed in increasing order and at most once, and never after having been omitted; a critical instance is omitted exactly if its host failed within the boot time before its release; a deadline is reported only after it has passed. An instance can be transmitted before its release, at the expense of the one that was waiting, and an instance that replaced another one is not reported when it misses its deadline.", "quantifier": "all message sets, all fault times, all tie-breaking orders, all runs; the counterexamples are runs", "why_tests_cant": "the instance numbers depend on the whole history of the bus", "anchors": ["native/src/canbus/can_sim.cpp:CANJob::update_seqno", "native/src/canbus/can_sim.cpp:CANJob::is_omission", "native/src/canbus/can_sim.cpp:CANBusScheduler::add_ready", "native/src/canbus/can_sim.cpp:CANBusScheduler::add_release", "native/include/canbus/can_sim.h:DeadlineEvent"]}
{"id": "C77", "title": "Statistics of the CAN simulator count every round once, and correctly for in-order messages", "statement": "The synchronous statistics of a task decide each round once, at the first report of its deadline, by the majority of correct over corrupted messages received (a coin decides a draw, a round with no message fails). The asynchronous statistics decide each round once: successful when the required number of correct messages has been received, failed when its deadline is reported before. No round is counted twice or both ways, whatever the order of the reports. The simulator reports the messages of replicas in the order of their rounds. The claims that the asynchronous statistics never count a corrupted message as correct and never count a message received after its deadline are refuted.", "quantifier": "all sequences of completion and deadline reports, all host failures, all replica quorums, and all runs of the simulator", "why_tests_cant": "the counters depend on the whole history of reports; a test sees a few interleavings", "anchors": ["native/src/canbus/tardiness_stats.cpp: CANBusTardinessStats::job_completed, job_completed_sync, job_completed_async, job_deadline_expired_sync, job_deadline_expired_async", "native/src/canbus/can_sim.cpp: CANJob::is_commission"]}
{"id": "C78", "title": "G-FRL priority points minimise and keep the relative response bound", "statement": "Whenever gfrl.compute_response_bounds gets past its assertion, with the factor L it found, the priority points it has attached to the tasks lie between 0 and the period, satisfy the compliance condition of the tardiness analysis with equality, and make the analytical response bound of every task at most L times its relative deadline, with equality for some task; scheduled by these priority points, every job completes within L times the relative deadline of its arrival; a suitable L always exists, is unique, so that it does not depend on the search, and is the smallest that any compliant priority points between 0 and the period reach; but response bounds are never returned.", "quantifier": "all task sets with bounded tardiness, processor counts, search results, legal job sequences and schedules by the priority points", "why_tests_cant": "The claim is about infinite schedules under rational priority points and about all values the search could return; no test terminates with a result at all.", "anchors": ["schedcat/sched/gfrl.py: compute_response_bounds, func_val, s_val, Si_val, Gi_val", "schedcat/sched/edf/gel_pl.py: compute_response_bounds"]}
{"id": "C79", "title": "The failure probabilities printed by the CAN simulation are the mean over all iterations", "statement": "simulate_for_tardiness_stats prints for every task the mean, over all iterations, of the share of failed rounds that a separate new simulation with the faults of that iteration would find, although it reuses one simulator and replaces all iterations without faults by a single simulation: without faults the run depends neither on the iteration nor on the coins that break ties. It ends for positive costs and periods, and what it prints is a number between 0 and 1 or not a number. That it is always a number is refuted: a task none of whose deadlines is reached has no rounds, so that 0 is divided by 0.", "quantifier": "all message sets, all numbers of iterations, all fault times drawn, all tie-breaking orders and coins", "why_tests_cant": "quantifies over all random draws and all runs; state left over from an earlier iteration would show only in some of them", "anchors": ["native/src/canbus/tardiness_stats.cpp: simulate_for_tardiness_stats, CANBusTardinessStats::reset_sync_stats, reset_async_stats", "native/src/canbus/can_sim.cpp: CANBusScheduler::reset_events_and_pending_queues, CANJob::reset_params, gen_host_faults, gen_retransmissions"]}
{"id": "C80", "title": "get_job_completion_time returns the first completion in the complete simulation", "statement": "get_job_completion_time returns the time at which the instance of the message with the given id, priority and number first completes in the complete simulation, which it aborts at that point; it always ends for positive costs and periods, and the time lies within one period after one time unit before the release of the instance, plus the cost. If the instance does not complete, which can happen however long the simulation is, the value returned is uninitialised.", "quantifier": "all message sets, ids, priorities, instance numbers, lengths of the simulation and tie-breaking orders", "why_tests_cant": "relates two runs of a simulator of unbounded length; a test looks at a few instances that complete", "anchors": ["native/src/canbus/job_completion_stats.cpp: CANBusJobCompletionStats::job_completed, get_job_completion_time", "native/include/canbus/job_completion_stats.h: CANBusJobCompletionStats"]}
{"id": "C81", "title": "load_columns transposes a table", "statement": "If the labels in the header are distinct after stripping, all rows are as long as the header and all cells can be converted, csv.load_columns returns each column, in the order of the rows, under its label in by_name and under its position in by_idx, whatever the iteration order of dictionaries. In general, whenever it returns, each label stands for the last column with that label and its entry holds exactly the converted cells of the non-empty rows. With repeated labels by_idx lacks the earlier columns, and empty lines are rejected by default.", "quantifier": "all tables, labels, conversions and dictionary orders", "why_tests_cant": "ranges over all tables and hash orders", "anchors": ["schedcat/util/csv.py: load_columns"]}
{"id": "C82", "title": "Overheads read from a file are never below the measurements", "statement": "Every overhead that Overheads.from_file or load_approximations reads from a file is a non-decreasing function that is, at every task count in the file (times the number of processors if counts are per processor), at least the value in that row, if task counts increase and values are not negative; overheads without a column are 0. The same holds for CacheDelay.from_file with working set sizes, and for the maximal cost. Files with distinct labels, at least one row and numbers in all cells can be loaded; with non_decreasing=False no file with an overhead can be loaded.", "quantifier": "all files, custom fields, numbers of processors and dictionary orders", "why_tests_cant": "ranges over all tables and all arguments of the functions read from them", "anchors": ["schedcat/overheads/model.py: Overheads.load_approximations, Overheads.from_file, CacheDelay.from_file, CacheDelay.max_cost", "schedcat/util/csv.py: load_columns", "schedcat/util/math.py: monotonic_pwlin"]}
{"id": "C83", "title": "Attributes and items of a storage object are the same thing", "statement": "After any history of reads, writes and deletions on a storage object, reading a name gives the value that was written to it last, whether it was written as an attribute or as an item, and fails if it was never written or was deleted since (AttributeError for attributes, KeyError for items). Writing never fails; deleting fails exactly if the name is absent. Names of methods of dict (such as items or values) are the exception: read as an attribute they always give the method.", "quantifier": "all histories of operations of any length, all names and values", "why_tests_cant": "ranges over all histories that mix both ways of access", "anchors": ["schedcat/util/storage.py: Storage.__getattr__, Storage.__setattr__, Storage.__delattr__"]}
{"id": "C84", "title": "Partitioning onto clusters places every task within capacity", "statement": "partition_tasks(cluster_size, clusters, dedicated_irq, taskset) returns clusters that hold every task exactly once, none empty and none with more utilization than it has processors; the first cluster has one processor less if one is set aside for interrupts. Each task went to the cluster with the most room at that time, the first of these. False is returned only if some task had no room in any cluster, and never if the total utilization is at most the number of processors minus (clusters - 1) times the largest utilization. A task's partition is the number of its cluster before empty ones are dropped, hence not always its position in the result.", "quantifier": "all task sets, cluster sizes and numbers of clusters, with or without a dedicated processor", "why_tests_cant": "ranges over all task sets and platform sizes", "anchors": ["example/mapping.py: partition_tasks", "schedcat/mapping/rollback.py: Bin, WorstFit, Heuristic.binpack"]}
