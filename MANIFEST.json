{
 "claims": [
  {
   "property": "C01",
   "status": "proved",
   "theorems": [
    "C01_dbf_sound",
    "C01_dbf_task_sound",
    "C01_dbf_tight"
   ],
   "note": "dbf of a task and of a task system, soundness and tightness over all legal job sequences"
  },
  {
   "property": "C02",
   "status": "proved",
   "theorems": [
    "C02_rbf_sound",
    "C02_rbf_tight"
   ],
   "note": "rbf, soundness and tightness"
  },
  {
   "property": "C03",
   "status": "proved",
   "theorems": [
    "C03_dbf_points_exact",
    "C03_dbf_points_terminates",
    "C03_rbf_points_exact",
    "C03_rbf_points_terminates",
    "C03_task_points_exact"
   ],
   "note": "task and task-system iterators with explicit max_t; heapq.merge modelled as fold of binary merge"
  },
  {
   "property": "C04",
   "status": "proved",
   "theorems": [
    "C04_maxjobs_sound",
    "C04_maxjobs_tight"
   ],
   "note": "closed intervals, integer time"
  },
  {
   "property": "C05",
   "status": "proved",
   "theorems": [
    "C05_hyperperiod_is_lcm",
    "C05_hyperperiod_order_independent"
   ],
   "note": "least common multiple, order independence"
  },
  {
   "property": "C06",
   "status": "proved",
   "theorems": [
    "C06_topsum_is_maximum",
    "C06_topsum_at_most",
    "C06_heaviest_is_maximum"
   ],
   "note": "exact rationals instead of floats"
  },
  {
   "property": "C07",
   "status": "proved",
   "theorems": [
    "C07_rta_sound",
    "C07_rta_legacy_sound"
   ],
   "note": "Discrete-time schedules, integer parameters; jobs of a task in arrival order; jitter, priority inversion and the legacy blocked attribute covered. Self-suspension is a separate property."
  },
  {
   "property": "C08",
   "status": "proved",
   "theorems": [
    "C08_rta_exact",
    "C08_rta_least_fixed_point"
   ],
   "note": "Exactness with release jitter and without priority inversion; the critical sequence and a schedule of it are constructed."
  },
  {
   "property": "C09",
   "status": "proved",
   "theorems": [
    "C09_rta_terminates",
    "C09_rta_sustainable"
   ],
   "note": "All four variants (jitter/suspension, legacy or not)"
  },
  {
   "property": "C10",
   "status": "proved",
   "theorems": [
    "C10_rta_within_deadline",
    "C10_rta_jitter_refuted"
   ],
   "note": "Proved without jitter; with jitter the statement is false (C10_rta_jitter_refuted)"
  },
  {
   "property": "C11",
   "status": "proved",
   "theorems": [
    "C11_qpa_exact"
   ],
   "note": "Python and native integers as Z, utilization as an exact rational; deadlines up to ULONG_MAX"
  },
  {
   "property": "C12",
   "status": "proved",
   "theorems": [
    "C12_qpa_sound"
   ],
   "note": "Discrete-time schedules with arbitrary tie-breaking"
  },
  {
   "property": "C13",
   "status": "proved",
   "theorems": [
    "C13_qpa_reject_infeasible"
   ],
   "note": "Synchronous periodic release; any schedule, any policy"
  },
  {
   "property": "C14",
   "status": "proved",
   "theorems": [
    "C14_split_maximal"
   ],
   "note": "Maximal over all integer budgets; feasibility in the sense of the processor-demand criterion, which C12/C13 tie to EDF schedules"
  },
  {
   "property": "C15",
   "status": "proved",
   "theorems": [
    "C15_gedf_schedules_exist",
    "C15_gfb_sound",
    "C15_zero_processors_refuted"
   ],
   "note": "All schedules, ties and arrival sequences; GFB for zero processors is refuted; existence of gEDF schedules proved so that the spec is not vacuous."
  },
  {
   "property": "C16",
   "status": "proved",
   "theorems": [
    "C16_bcl_sound",
    "C16_infeasible_tasks_refuted"
   ],
   "note": "Proved for cost <= deadline <= period; the Python test does not check cost <= deadline and then accepts unschedulable sets (refuted)."
  },
  {
   "property": "C17",
   "status": "proved",
   "theorems": [
    "C17_gfb_agree",
    "C17_bak_agree",
    "C17_bcl_agree",
    "C17_bcli_agree",
    "C17_rta_agree",
    "C17_native_rejects",
    "C17_bak_arbitrary_deadlines_refuted",
    "C17_combined_agree",
    "C17_combined_uniprocessor_refuted"
   ],
   "note": "Five tests and the combined test agree under the native preconditions (combined: m >= 2); BAK differs for arbitrary deadlines and the combined test on one processor (refuted)."
  },
  {
   "property": "C18",
   "status": "proved",
   "theorems": [
    "C18_bcli_sound",
    "C18_bcli_terminates",
    "C18_bcli_infeasible_refuted",
    "C18_rta_sound",
    "C18_rta_bounds_sound",
    "C18_rta_terminates",
    "C18_rta_divergence_refuted"
   ],
   "note": "Termination, slack range and soundness of recorded response times for all schedules; divergence and unsound acceptance without cost <= deadline are refuted by witnesses."
  },
  {
   "property": "C19",
   "status": "partial",
   "theorems": [
    "C19_accept_justified",
    "C19_accepts_empty",
    "C19_infeasible_accepted_refuted",
    "C19_divergence_refuted",
    "C19_gfb_order",
    "C19_bak_order",
    "C19_rta_order",
    "C19_order_without_rta",
    "C19_order_refuted",
    "C19_bak_sound",
    "C19_bar_sound",
    "C19_bar_terminates",
    "C19_ffdbf_sound",
    "C19_ffdbf_terminates",
    "C19_accept_sound",
    "C19_accept_terminates",
    "C19_bar_order",
    "C19_ffdbf_order",
    "C19_order",
    "C19_bak_arbitrary_refuted"
   ],
   "note": "Soundness, termination and (without RTA) order independence of the combined test with all component tests modelled; BAK is unsound for deadlines beyond the period, and RTA with step 2 depends on the order (refuted)."
  },
  {
   "property": "C20",
   "status": "proved",
   "theorems": [
    "C20_capacity",
    "C20_next_fit_capacity",
    "C20_best_fit_on_demand",
    "C20_on_demand_capacity_refuted"
   ],
   "note": "All heuristics with a fixed number of bins and their decreasing variants, next_fit included; best_fit on demand exceeds the capacity only by single oversize items (refutation shown)."
  },
  {
   "property": "C21",
   "status": "proved",
   "theorems": [
    "C21_conservation",
    "C21_exceptions",
    "C21_next_fit_conservation",
    "C21_next_fit_conservation_refuted",
    "C21_any_fit"
   ],
   "note": "Permutation of the input for all but next_fit; next_fit drops exactly the items after its first misfit (refuted in full); any_fit characterised."
  },
  {
   "property": "C22",
   "status": "proved",
   "theorems": [
    "C22_selection_rules",
    "C22_decreasing",
    "C22_next_fit",
    "C22_best_fit_on_demand"
   ],
   "note": "Every call is a run of an independent selection rule, including where an exception stops it."
  },
  {
   "property": "C23",
   "status": "proved",
   "theorems": [
    "C23_all_or_nothing",
    "C23_place_item",
    "C23_history",
    "C23_count",
    "C23_spare_capacity_classes",
    "C23_spare_capacity_classes_global_refuted",
    "C23_same_as_binpack",
    "C23_ductile_fit_based_capacity_refuted",
    "C23_fit_based_global_refuted"
   ],
   "note": "All-or-nothing for every item, acceptance predicate and bin kind; histories of binpack calls conserve items and stay within capacity and constraint (FitBased: fixed-size items, constraints closed under removal; the rest refuted by witnesses); documented equivalences of the spare-capacity classes and with binpack.py."
  },
  {
   "property": "C24",
   "status": "proved",
   "theorems": [
    "C24_terminates",
    "C24_idle_terminates",
    "C24_slack",
    "C24_slack_total",
    "C24_levels",
    "C24_running",
    "C24_executable",
    "C24_preemptions",
    "C24_overload_rejected_refuted"
   ],
   "note": "Bin sums exact (code: floats). Finding: rates above one are not rejected (C24_overload_rejected_refuted)."
  },
  {
   "property": "C25",
   "status": "proved",
   "theorems": [
    "C25_jlfp_safe",
    "C25_jlfp_charge",
    "C25_jlfp_accepts",
    "C25_jlfp_zero",
    "C25_jlfp_mono",
    "C25_cpmd_covers",
    "C25_cpmd_caused",
    "C25_initial_load",
    "C25_jlfp_integral",
    "C25_full_interrupt_load_refuted",
    "C25_negative_period_refuted",
    "C25_fp_charge",
    "C25_fp_zero",
    "C25_fp_safe",
    "C25_fp_integral",
    "C25_fp_vanishing_refuted",
    "C25_pfair_charge",
    "C25_pfair_safe",
    "C25_pfair_staggering_refuted",
    "C25_pfair_zero",
    "C25_spinlock_charge",
    "C25_semaphore_charge",
    "C25_dpcp_charge",
    "C25_spinlock_safe",
    "C25_semaphore_safe",
    "C25_dpcp_safe",
    "C25_sections_fit",
    "C25_sections_refuted"
   ],
   "note": "JLFP, FP, Pfair and locking overheads: exact charges, never easier, zero overheads, monotonicity and CPMD coverage; full interrupt load, negative periods, vanishing periods and Pfair staggering are refuted by witnesses."
  },
  {
   "property": "C26",
   "status": "proved",
   "theorems": [
    "C26_wcet",
    "C26_wcet_safe",
    "C26_wcet_rounded",
    "C26_period",
    "C26_period_exceptions",
    "C26_short_period_refuted",
    "C26_vanishing_period_refuted",
    "C26_delayed_release",
    "C26_staggering",
    "C26_negative_period_refuted"
   ],
   "note": "Costs round up to the least sufficient number of quanta, periods and deadlines of at least a quantum round down; shorter periods that divide the quantum, vanishing and negative periods are refuted by witnesses."
  },
  {
   "property": "C27",
   "status": "proved",
   "theorems": [
    "C27_defined",
    "C27_nondecreasing",
    "C27_interpolates",
    "C27_at_samples",
    "C27_dominates",
    "C27_least",
    "C27_exact_on_monotone_samples",
    "C27_filtered_monotonic",
    "C27_repeated_positions_refuted",
    "C27_empty_refuted"
   ],
   "note": "Interpolation of running maxima for all sample lists with strictly increasing positions; repeated positions and the empty list are refuted by witnesses."
  },
  {
   "property": "C28",
   "status": "proved",
   "theorems": [
    "C28_safe",
    "C28_tight",
    "C28_cluster_exact",
    "C28_sorted",
    "C28_split",
    "C28_jobs_safe",
    "C28_jobs_tight",
    "C28_kx_safe"
   ],
   "note": "Exact maximum over selections (upper bound and attained), job counts exact over sporadic sequences, k-exclusion two-level bound safe."
  },
  {
   "property": "C29",
   "status": "proved",
   "theorems": [
    "C29_spin_safe",
    "C29_span_safe",
    "C29_blocking_safe",
    "C29_monotone",
    "C29_zero",
    "C29_local_resources",
    "C29_ceiling_blocking",
    "C29_msrp",
    "C29_global_fmlp_safe",
    "C29_global_omlp_safe",
    "C29_kx_safe",
    "C29_part_omlp_safe",
    "C29_extract_resources",
    "C29_msrp_safe"
   ],
   "note": "Operational soundness over all executions: FIFO spin locks (waiting, request span, arrival blocking), global FMLP, global OMLP, clustered k-exclusion, partitioned OMLP, MSRP (global spinning plus local ceiling blocking); monotone; zero without contention. Assumes one request bound per task and resource (wf_info). The progress mechanism (inheritance, donation) is part of the execution specification."
  },
  {
   "property": "C30",
   "status": "proved",
   "theorems": [
    "C30_groups",
    "C30_model",
    "C30_protects"
   ],
   "note": "Heap of shared sets modelled; groups equal the classes of the nesting relation, and the derived request model is exact."
  },
  {
   "property": "C31",
   "status": "proved",
   "theorems": [
    "C31_sound",
    "C31_single",
    "C31_refuted"
   ],
   "note": "Soundness for all inputs and exactness for tasks with at most one resource; the general promise is refuted for every iteration order."
  },
  {
   "property": "C32",
   "status": "proved",
   "theorems": [
    "C32_iteration",
    "C32_order_strict",
    "C32_total",
    "C32_well_ordered",
    "C32_deadlock_free",
    "C32_no_reentrance",
    "C32_add_nested",
    "C32_requests"
   ],
   "note": "Positions, flat listing, total lengths, order check, deadlock freedom and construction histories."
  },
  {
   "property": "C33",
   "status": "proved",
   "theorems": [
    "C33_task",
    "C33_taskset",
    "C33_writable",
    "C33_testpoint",
    "C33_idempotent",
    "C33_injective",
    "C33_integers",
    "C33_properties",
    "C33_duplicates",
    "C33_large_refuted",
    "C33_none_refuted",
    "C33_reentrant_refuted",
    "C33_lossy_refuted"
   ],
   "note": "serialize.py on element trees; the XML text layer of ElementTree is trusted. What the format loses is shown by C33_lossy_refuted, C33_large_refuted, C33_none_refuted and C33_reentrant_refuted."
  },
  {
   "property": "C34",
   "status": "proved",
   "theorems": [
    "C34_util_cap",
    "C34_count_cap",
    "C34_in_order",
    "C34_positive",
    "C34_reaches",
    "C34_feasible",
    "C34_slack",
    "C34_terminates",
    "C34_terminates_refuted",
    "C34_squeeze_exact_refuted",
    "C34_ranges",
    "C34_limiters",
    "C34_multimodal",
    "C34_named",
    "C34_fixed_sum",
    "C34_fixed_sum_denominators",
    "C34_fixed_sum_full_refuted",
    "C34_fixed_sum_zero_refuted",
    "C34_emstada",
    "C34_emstada_refuted"
   ],
   "note": "Exact rationals for floats, random numbers and exp/log/roots as universally quantified parameters. The probability distribution itself is not stated."
  },
  {
   "property": "C35",
   "status": "proved",
   "theorems": [
    "C35_terminates",
    "C35_least_fixpoint",
    "C35_monotone",
    "C35_is_schedulable",
    "C35_cache",
    "C35_first_instance_safe",
    "C35_refuted"
   ],
   "note": "Least fixed point, termination, monotonicity, cache; safety of the first instance of a busy period on a bus with faults; C35_refuted shows that the bound is wrong for later instances. Times are integers in a common unit."
  },
  {
   "property": "C36",
   "status": "proved",
   "theorems": [
    "C36_miss_sound",
    "C36_clean_sound",
    "C36_refutes",
    "C36_total",
    "C36_accepts",
    "C36_first_violation",
    "C36_tardiness",
    "C36_unfinished_refuted",
    "C36_python_preemptive_refuted"
   ],
   "note": "The native simulator and its Python wrapper. Ties are broken by an arbitrary function. C36_unfinished_refuted and C36_python_preemptive_refuted show the limits of the verdict."
  },
  {
   "property": "C37",
   "status": "proved",
   "theorems": [
    "C37_sound",
    "C37_exact",
    "C37_constrained_rejected",
    "C37_response_times"
   ],
   "note": "Exact: a bipartite-matching (Hall) argument over the fluid schedule gives an integral schedule for every sporadic job sequence and horizon; necessity by counting over multiples of the hyperperiod."
  },
  {
   "property": "C38",
   "status": "proved",
   "theorems": [
    "C38_gel_safe",
    "C38_bounded_exact",
    "C38_gel_total",
    "C38_gel_empty",
    "C38_exact_smallest",
    "C38_exact_tightest",
    "C38_binsearch_converges",
    "C38_gfl_safe",
    "C38_gedf_safe",
    "C38_shortcut_refuted",
    "C38_native_safe",
    "C38_native_total",
    "C38_native_overload_refuted",
    "C38_native_zero_refuted"
   ],
   "note": "Task sets that are not over-utilized; refutations show both this and non-zero priority points are needed for the uniprocessor shortcut and the native code. compute_exact_s of gel_pl.cpp is identified with that of gel_pl.py; rationals are exact."
  },
  {
   "property": "C39",
   "status": "proved",
   "theorems": [
    "C39_approx_safe",
    "C39_exact_safe",
    "C39_order",
    "C39_exact_le_approx",
    "C39_lower_bound",
    "C39_verdict",
    "C39_terminates",
    "C39_overutilized",
    "C39_full_utilization_diverges",
    "C39_busy_period",
    "C39_refuted"
   ],
   "note": "Default supply functions only (dedicated processor), integer parameters. Safety needs distinct deadlines apart from the two smallest; C39_refuted shows why. Full utilization: C39_full_utilization_diverges."
  },
  {
   "property": "C40",
   "status": "proved",
   "theorems": [
    "C40_worst_fit",
    "C40_double_worst_fit",
    "C40_first_fit",
    "C40_refuted",
    "C40_edf_assign",
    "C40_preassign_failures",
    "C40_conservation",
    "C40_run_time"
   ],
   "note": "All heuristics of apa.py (wfd, ffd, 2WFD, the four combinations, PAF) as sequences of legal steps: termination, no exception, conservation, affinity, EDF safety at run time, maximality. Task ids must be distinct for first fit (C40_refuted shows why). For first fit with splits, maximality is not claimed: the code stops at the first task that does not fit."
  },
  {
   "property": "C41",
   "status": "proved",
   "theorems": [
    "C41_sound",
    "C41_robust",
    "C41_exact",
    "C41_tolerance",
    "C41_integer_assertion_refuted"
   ],
   "note": "Soundness, exactness and robustness over all assignments with distinct priorities; the success probabilities are not modelled (only whether an entry exists)."
  },
  {
   "property": "C42",
   "status": "proved",
   "theorems": [
    "C42_transform",
    "C42_reduce_periods",
    "C42_refuted"
   ],
   "note": "Period transformation for deadlines of at least the period, and meta_reduce_periods with integer candidates; C42_refuted shows it is unsafe for shorter deadlines."
  },
  {
   "property": "C43",
   "status": "partial",
   "theorems": [
    "C43_da_total",
    "C43_da_safe",
    "C43_x_single",
    "C43_np_single_refuted",
    "C43_np_refuted"
   ],
   "note": "Existence and safety of the preemptive bound for every processor count; the non-preemptive bound is refuted on one and on two processors."
  },
  {
   "property": "C44",
   "status": "proved",
   "theorems": [
    "C44_safe",
    "C44_no_tardiness",
    "C44_exact",
    "C44_assertion",
    "C44_terminates",
    "C44_arbitrary_refuted"
   ],
   "note": "All cases of the pure-Python function; the native schedulability test is not composed with it."
  },
  {
   "property": "C45",
   "status": "proved",
   "theorems": [
    "C45_schedules_exist",
    "C45_safe",
    "C45_safe_strict",
    "C45_terminates",
    "C45_least",
    "C45_slack",
    "C45_arbitrary_refuted"
   ],
   "note": "Safety for all job sequences and schedules with blocking (C45_safe; C45_safe_strict without), existence of such schedules, termination, least solution of the recurrence and exact meaning of False, slack dominance. Constrained deadlines; C45_arbitrary_refuted shows that the analysis accepts an unschedulable set when deadlines exceed periods."
  },
  {
   "property": "C46",
   "status": "proved",
   "theorems": [
    "C46_safe",
    "C46_assertion",
    "C46_assertion_complete",
    "C46_terminates",
    "C46_least",
    "C46_dominates",
    "C46_fp_safe",
    "C46_dispatch"
   ],
   "note": "Safety of Guan's analysis for all job sequences and global fixed-priority schedules; C46_fp_safe composes the dispatch, including the uniprocessor case through C07; termination, assertion, least solution with the worst choice of carry-in tasks, dominance over Bertogna (positive costs)."
  },
  {
   "property": "C47",
   "status": "proved",
   "theorems": [
    "C47_blocking_safe",
    "C47_span_safe",
    "C47_zero"
   ],
   "note": "Spinning of a job, arrival blocking and request spans are covered in every phase-fair execution; zero without conflicting requests. Each task has at most one read and one write bound per resource (the code keeps only the last length per type)."
  },
  {
   "property": "C48",
   "status": "proved",
   "theorems": [
    "C48_blocking_safe",
    "C48_span_safe",
    "C48_models",
    "C48_not_worse_than_mutex",
    "C48_counting_safe",
    "C48_counting_tight"
   ],
   "note": "Spinning, arrival blocking and spans are covered in every task-fair execution for every mutex model that covers the reader-writer model; both models of a Python task set do; never worse than the mutex bound; the counting is exact."
  },
  {
   "property": "C49",
   "status": "proved",
   "theorems": [
    "C49_decode",
    "C49_indices",
    "C49_stable",
    "C49_optimum",
    "C49_collision_refuted",
    "C49_rounding"
   ],
   "note": "Keys decode, indices of lookups are equal exactly for equal variables, stable and dense, and the program over column indices has the optimum of the intended one, if requests are numbered below 2^20; refuted for the range the assertion admits. Rounding by lrint keeps integer bounds."
  },
  {
   "property": "C50",
   "status": "proved",
   "theorems": [
    "C50_window_safe",
    "C50_response_times_safe",
    "C50_feasible"
   ],
   "note": "Window theorem (time lost to spinning and lower-priority jobs in a busy window is at most the rounded optimum) and end-to-end response times; the all-zero vector is always feasible. Assumes distinct priorities per processor, at most one request bound per task and resource, an optimal solution returned by the solver."
  },
  {
   "property": "C51",
   "status": "proved",
   "theorems": [
    "C51_window_safe",
    "C51_response_times_safe",
    "C51_not_smaller"
   ],
   "note": "The same without the FIFO rule; the baseline optimum is never below the MSRP optimum."
  },
  {
   "property": "C52",
   "status": "proved",
   "theorems": [
    "C52_terminates",
    "C52_wait_time_safe",
    "C52_window_safe",
    "C52_response_times_safe",
    "C52_feasible",
    "C52_not_above_baseline"
   ],
   "note": "non-preemptive spinning (the preemptive variant of the constraints is not modelled); lrint on exact rationals; LP optimum instead of a solver run"
  },
  {
   "property": "C53",
   "status": "proved",
   "theorems": [
    "C53_terminates",
    "C53_window_safe",
    "C53_response_times_safe",
    "C53_lowest_unsafe",
    "C53_mixed_unsafe"
   ],
   "note": "non-preemptive spinning; safe under prio_condition, refuted without it"
  },
  {
   "property": "C54",
   "status": "proved",
   "theorems": [
    "C54_terminates",
    "C54_window_safe",
    "C54_response_times_safe",
    "C54_as_called_fifo_safe",
    "C54_as_called_priority_unsafe",
    "C54_arrival_unsafe"
   ],
   "note": "non-preemptive spinning; safe under prio_fifo_condition and, as called, for FIFO locks; refuted otherwise"
  },
  {
   "property": "C55",
   "status": "proved",
   "theorems": [
    "C55_safe",
    "C55_without_suspensions_safe",
    "C55_rejects",
    "C55_time_limit",
    "C55_terminates",
    "C55_arbitrary_deadlines_unsafe"
   ],
   "note": "LA for constrained deadlines with suspensions; refuted for deadlines beyond the period. Tardiness thresholds other than zero are not covered."
  },
  {
   "property": "C56",
   "status": "proved",
   "theorems": [
    "C56_agree",
    "C56_safe",
    "C56_terminates",
    "C56_combined_safe",
    "C56_combined_suspending_safe",
    "C56_combined_arbitrary_deadlines_unsafe",
    "C56_combined_uniprocessor_unsafe"
   ],
   "note": "Agreement with the Python version, safety and termination; combined test with FF-DBF and the load test as parameters; refuted for deadlines beyond the period."
  },
  {
   "property": "C57",
   "status": "proved",
   "theorems": [
    "C57_agree",
    "C57_safe",
    "C57_terminates",
    "C57_empty_undefined"
   ],
   "note": "C++ version of FF-DBF: agreement with the Python model for all parameters, safety, termination; undefined on the empty set (finding)."
  },
  {
   "property": "C58",
   "status": "proved",
   "theorems": [
    "C58_load_bound",
    "C58_load_accurate",
    "C58_safe",
    "C58_arbitrary_deadlines_unsafe",
    "C58_load_underestimated",
    "C58_combined_safe"
   ],
   "note": "Load bound for all times and all k, accuracy within epsilon, safety for constrained deadlines on any number of processors, and safety of the combined C++ test with no part left abstract. Refuted for deadlines beyond the period. The double ceiling in k_for_epsilon is exact in the model; the bound does not depend on it."
  },
  {
   "property": "C59",
   "status": "proved",
   "theorems": [
    "C59_accept_feasible",
    "C59_reject_infeasible",
    "C59_exact",
    "C59_fractions",
    "C59_no_processor_unsafe",
    "C59_affinities_kept"
   ],
   "note": "The verdict of the feasibility program is exact for tasks with a non-empty affinity (both directions over all legal sequences and all schedules), the returned fractions are a legal allocation, and get_native_affinities keeps every affinity. The linear-program solver is an oracle assumed to answer this one program correctly. C59_no_processor_unsafe records that tasks with an empty affinity are wrongly accepted."
  },
  {
   "property": "C60",
   "status": "proved",
   "theorems": [
    "C60_msrp_edf_safe",
    "C60_msrp_exact",
    "C60_levels",
    "C60_levels_ok",
    "C60_levels_unsafe",
    "C60_processors_unsafe"
   ],
   "note": "Safety quantifies over all executions with FIFO non-preemptive spin locks and EDF+SRP; the criterion is stated on the task set. Conditions: levels follow deadlines, partitions below num_cpus, costs and deadlines positive. The two unsafe theorems show that the first two are needed."
  },
  {
   "property": "C61",
   "status": "proved",
   "theorems": [
    "C61_spin_bound",
    "C61_local_bound",
    "C61_response_times_safe",
    "C61_all_meet",
    "C61_levels",
    "C61_processors_unsafe"
   ],
   "note": "The response-time guarantee is end to end: bounds from msrp.cpp, costs and blocking as set by apply_msrp_bounds, response times from fp/rta.py, all executions of SpecSpinFP with FIFO order. Distinct priorities per processor are assumed (assign_fp_preemption_levels gives them)."
  },
  {
   "property": "C62",
   "status": "proved",
   "theorems": [
    "C62_lp_msrp_edf_safe",
    "C62_local_resources_unsafe",
    "C62_wraparound_unsafe"
   ],
   "note": "Safety over all executions, for any solver whose answers bound the optimum, with exact integers and local resources shared only among equal deadlines; both restrictions are shown necessary by witnesses with optimal solvers."
  },
  {
   "property": "C63",
   "status": "proved",
   "theorems": [
    "C63_assign",
    "C63_indices_valid",
    "C63_remote_safe",
    "C63_local_safe",
    "C63_total_safe",
    "C63_unassigned_unsafe",
    "C63_equal_priorities_unsafe"
   ],
   "note": "Remote, local and total bound for every DPCP execution with distinct priorities; two counterexamples outside of the hypotheses."
  },
  {
   "property": "C64",
   "status": "proved",
   "theorems": [
    "C64_indices_valid",
    "C64_remote_safe",
    "C64_local_safe",
    "C64_total_safe",
    "C64_nonpreemptive_unsafe"
   ],
   "note": "all bounds for preemptive sections and remote bounds in general; local and total bound for non-preemptive sections without local sharing, refuted with it"
  },
  {
   "property": "C65",
   "status": "proved",
   "theorems": [
    "C65_terminates",
    "C65_indices_valid",
    "C65_remote_safe",
    "C65_local_safe",
    "C65_total_safe",
    "C65_arbitrary_deadlines_unsafe",
    "C65_equal_priorities_unsafe",
    "C65_wraparound_unsafe"
   ],
   "note": "Safety of the remote, local and total MPCP bounds with and without virtual spinning, termination of the fixed-point loop and valid indices; three refutations where response times exceed periods, priorities coincide, or 32-bit products wrap."
  },
  {
   "property": "C66",
   "status": "proved",
   "theorems": [
    "C66_sections",
    "C66_transitive",
    "C66_well_ordered",
    "C66_cyclic_incomplete",
    "C66_common_outer_refuted",
    "C66_common_outer_same_task"
   ],
   "note": "full; acyclicity is needed for completeness (C66_cyclic_incomplete); the three-argument has_common_outer is refuted"
  },
  {
   "property": "C67",
   "status": "proved",
   "theorems": [
    "C67_poisson",
    "C67_exact",
    "C67_cumulative",
    "C67_determined",
    "C67_is_schedulable",
    "C67_repeated_refuted",
    "C67_rate_zero_refuted"
   ],
   "note": "Exact answers for every history of queries; cumulative query of a fresh message; agreement of is_schedulable with C35. Repeated cumulative queries and fault rate 0 are refuted. Uses the real numbers of the standard library (axioms listed in DESIGN.md)."
  },
  {
   "property": "C68",
   "status": "proved",
   "theorems": [
    "C68_powerset",
    "C68_correct",
    "C68_bound",
    "C68_success",
    "C68_zero_diverges"
   ],
   "note": "Exact success probability as a nested expectation over omissions, fault numbers and corruptions. Real numbers of the standard library."
  },
  {
   "property": "C69",
   "status": "proved",
   "theorems": [
    "C69_mean",
    "C69_accuracy",
    "C69_monotone_refuted"
   ],
   "note": "Two-sided bound of the reported rate by the rate of the exact mean; strict underestimation; monotonicity refuted."
  },
  {
   "property": "C70",
   "status": "proved",
   "theorems": [
    "C70_direct",
    "C70_response",
    "C70_equal_refuted"
   ],
   "note": "proved for executions with distinct priorities; equal priorities refuted"
  },
  {
   "property": "C71",
   "status": "proved",
   "theorems": [
    "C71_safe"
   ],
   "note": "composition of the PIP bounds with the response-time recurrence of C45"
  },
  {
   "property": "C72",
   "status": "proved",
   "theorems": [
    "C72_no_requests",
    "C72_unsafe",
    "C72_general",
    "C72_expelling",
    "C72_reasonable"
   ],
   "note": "general bounds compared with C70; the bounds for reasonable assignments are shown to be unsafe"
  },
  {
   "property": "C73",
   "status": "proved",
   "theorems": [
    "C73_kill_optimum",
    "C73_kill_solution",
    "C73_zero_coefficient_refuted",
    "C73_negative_coefficient_refuted",
    "C73_infeasible_refuted",
    "C73_written",
    "C73_rounding_refuted"
   ],
   "note": "proved for positive coefficients and feasible programs; each condition shown to be needed"
  },
  {
   "property": "C74",
   "status": "proved",
   "theorems": [
    "C74_prefix",
    "C74_combined",
    "C74_collision_refuted"
   ],
   "note": "proved for prefixes without underscores; collisions refuted"
  },
  {
   "property": "C75",
   "status": "proved",
   "theorems": [
    "C75_refines",
    "C75_terminates",
    "C75_exclusive",
    "C75_frames"
   ],
   "note": "For every message set with positive costs and periods, every sorted list of disturbances, every host failure list, every tie-breaking order and every callback that only removes host failures, the observations of the simulator are a trace of an independent transition system of a CAN bus (C75_refines); consequences on traces: C75_exclusive, C75_frames; the simulation ends (C75_terminates)."
  },
  {
   "property": "C76",
   "status": "proved",
   "theorems": [
    "C76_newest",
    "C76_once",
    "C76_expired",
    "C76_omitted",
    "C76_down_is_omitted",
    "C76_early_refuted",
    "C76_deadline_refuted"
   ],
   "note": "Newest instance as of t+1, at most one success per instance in increasing order, omissions exactly when the host is down (both directions), deadlines reported only after they passed; that no instance is sent before its release and that every late instance is reported are refuted by runs."
  },
  {
   "property": "C77",
   "status": "proved",
   "theorems": [
    "C77_once",
    "C77_sync",
    "C77_async",
    "C77_async_blind",
    "C77_async_corrupted_refuted",
    "C77_callback",
    "C77_replicas",
    "C77_in_order",
    "C77_late_refuted"
   ],
   "note": "once, majority and quorum decisions exact for in-order reports; order of replicas proved of the simulator; async corruption and late messages refuted"
  },
  {
   "property": "C78",
   "status": "proved",
   "theorems": [
    "C78_compliance",
    "C78_safe",
    "C78_decreasing",
    "C78_unique",
    "C78_returns_refuted",
    "C78_optimal",
    "C78_exists"
   ],
   "note": "search loop (gfrl.py:110-376) represented by an arbitrary result; that bounds are returned is refuted (TypeError)"
  },
  {
   "property": "C79",
   "status": "proved",
   "theorems": [
    "C79_fault_free",
    "C79_coins",
    "C79_mean",
    "C79_terminates",
    "C79_range",
    "C79_number_refuted"
   ],
   "note": "C79_mean: printed value = mean over separate fresh simulations; C79_fault_free and C79_coins justify replacing fault-free iterations; C79_terminates, C79_range; C79_number_refuted: NaN."
  },
  {
   "property": "C80",
   "status": "proved",
   "theorems": [
    "C80_completion",
    "C80_window",
    "C80_terminates",
    "C80_initialised_refuted"
   ],
   "note": "C80_completion, C80_window, C80_terminates; the claim that the result is always initialised is refuted (C80_initialised_refuted)."
  },
  {
   "property": "C81",
   "status": "proved",
   "theorems": [
    "C81_columns",
    "C81_transposes",
    "C81_repeated_refuted",
    "C81_empty_line_refuted"
   ],
   "note": "C81_columns (general), C81_transposes (proper tables); refuted: by_idx with repeated labels, empty lines."
  },
  {
   "property": "C82",
   "status": "proved",
   "theorems": [
    "C82_overheads",
    "C82_cache",
    "C82_plain_fails",
    "C82_loads",
    "C82_header_only_refuted"
   ],
   "note": "C82_overheads, C82_cache, C82_loads; C82_plain_fails (NameError) and C82_header_only_refuted record defects."
  },
  {
   "property": "C83",
   "status": "proved",
   "theorems": [
    "C83_items",
    "C83_attributes",
    "C83_changes",
    "C83_method_names_refuted"
   ],
   "note": "Python's dict is an association list; names with double underscores are left out. Names of dict methods are the exception, refuted for them."
  },
  {
   "property": "C84",
   "status": "proved",
   "theorems": [
    "C84_worst_fit",
    "C84_partition",
    "C84_found",
    "C84_position_refuted"
   ],
   "note": "Composed with the bins of C23. That a task's partition is its cluster's position in the result is refuted."
  }
 ]
}