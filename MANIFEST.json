{
 "claims": [
  {
   "property": "C01",
   "status": "proved",
   "theorems": [
    "C01_set_method_result",
    "C01_presets_complete",
    "C01_presets_keep_problem",
    "C01_block_size_zero_refuted"
   ],
   "note": "All sixteen presets. With numEvals = 0 two presets leave the block size at 0 (refuted lemma)."
  },
  {
   "property": "C02",
   "status": "proved",
   "theorems": [
    "C02_defaults_keep_choices",
    "C02_defaults_without_method",
    "C02_defaults_idempotent",
    "C02_explicit_choice_overwritten_refuted"
   ],
   "note": "The unrestricted claim fails when no method is chosen; the refutation exhibits it and C02_defaults_without_method bounds the damage."
  },
  {
   "property": "C03",
   "status": "proved",
   "theorems": [
    "C03_defaults_accepted",
    "C03_constrained_defaults_refuted",
    "C03_large_block_defaults_refuted"
   ],
   "note": "Covers the driver preparation (sequential defaults, set_defaults, ldOPs, callbacks, seeds) followed by check_input. The two refutations show why the dimension hypotheses are needed."
  },
  {
   "property": "C04",
   "status": "proved",
   "theorems": [
    "C04_rejection_is_justified",
    "C04_acceptance_is_justified",
    "C04_accepts_exactly",
    "C04_first_violation",
    "C04_restart_equal_n_refuted",
    "C04_undocumented_rejections_refuted"
   ],
   "note": "Specification transcribed from the documented error table. Doubles are order-preserving integer codes; NaN tolerances are not modelled."
  },
  {
   "property": "C05",
   "status": "proved",
   "theorems": [
    "C05_failed_call_returns_none",
    "C05_rejected_call",
    "C05_null_query"
   ],
   "note": "The iteration and conversions are arbitrary oracles in driver_env."
  },
  {
   "property": "C06",
   "status": "proved",
   "theorems": [
    "C06_seeds_legal",
    "C06_default_last_seed_odd",
    "C06_default_seeds_distinct",
    "C06_user_even_seed_refuted",
    "C06_negative_rank_refuted"
   ],
   "note": ""
  },
  {
   "property": "C07",
   "status": "proved",
   "theorems": [
    "C07_all_or_none",
    "C07_mixed_failure_blocks_refuted",
    "C07_callback_error_disagrees_refuted",
    "C07_failed_sum"
   ],
   "note": "Holds when the callback itself succeeds and the parallel-failure code is held by all or none (PARALLEL_CHECK guarantees the latter, C28_uniform_outcome); the refutations show both hypotheses are needed."
  },
  {
   "property": "C08",
   "status": "proved",
   "theorems": [
    "C08_broadcast_by_sum",
    "C08_broadcast_by_callback",
    "C08_single_process",
    "C08_no_callback_refuted"
   ],
   "note": "Any reduction order; up to the conversion to the callback type and back; -0 and +0 identified."
  },
  {
   "property": "C09",
   "status": "proved",
   "theorems": [
    "C09_permute_vecs_in_place",
    "C09_permute_vecs_rearranges",
    "C09_compact_vecs_copy",
    "C09_compact_vecs_same_buffer",
    "C09_compact_vecs_same_buffer_unordered_refuted",
    "C09_compact_vecs"
   ],
   "note": "Cycle-following loop modelled with checked memory and fuel; success of the model shows termination and in-bounds access."
  },
  {
   "property": "C10",
   "status": "proved",
   "theorems": [
    "C10_pack_unpack_roundtrip",
    "C10_guard_too_weak_refuted",
    "C10_shape_refused"
   ],
   "note": "Under n+i0<=ldy, which every caller satisfies; the routine's own guard alone is refuted."
  },
  {
   "property": "C11",
   "status": "proved",
   "theorems": [
    "C11_ritz_pairs_rearranged_in_target_order"
   ],
   "note": "Hermitian Rayleigh-Ritz ordering; order part under explicit monotonicity laws of rounded arithmetic (instances for Z and Q proved), rearrangement part unconditional."
  },
  {
   "property": "C12",
   "status": "proved",
   "theorems": [
    "C12_output_pairs_consistent",
    "C12_output_values_ordered"
   ],
   "note": "All histories of locking rounds; insertion sort and locking loop on checked arrays, final vector permutation included."
  },
  {
   "property": "C13",
   "status": "proved",
   "theorems": [
    "C13_soft_locking",
    "C13_soft_kept",
    "C13_soft_sizes",
    "C13_locking",
    "C13_failed",
    "C13_merge",
    "C13_front",
    "C13_soft_guesses_refuted",
    "C13_recount"
   ],
   "note": "Index bookkeeping of restart.c and main_iter.c 1010-1041; the products with V are not modelled. The refutation: pending initial guesses can shrink restartSize below a marked pair."
  },
  {
   "property": "C14",
   "status": "proved",
   "theorems": [
    "C14_retained",
    "C14_fits",
    "C14_room",
    "C14_dimension",
    "C14_guesses",
    "C14_room_failed_refuted"
   ],
   "note": "Sizes of restart.c 251-311, 2361-2387 and main_iter.c 1106-1120. The refutation: failed locking can leave the basis full."
  },
  {
   "property": "C15",
   "status": "proved",
   "theorems": [
    "C15_converged_evidence",
    "C15_accepted_is_flagged",
    "C15_wrong_side_unconverged",
    "C15_practical_evidence",
    "C15_put_aside",
    "C15_only_checked_pairs",
    "C15_in_bounds",
    "C15_nan_not_converged",
    "C15_no_looser_than_test",
    "C15_orthogonality_raises_refuted",
    "C15_practical_outgrown_refuted",
    "C15_shift",
    "C15_default_test"
   ],
   "note": "check_convergence and check_practical_convergence are modelled completely; the user's test and the projected norms are arbitrary oracles. Two clauses of the English claim are false of the code and refuted: the restart also raises the accepted tolerance by the orthogonality level, and a pair that carried the practically-converged flag keeps it with a residual above every tolerance."
  },
  {
   "property": "C16",
   "status": "proved",
   "theorems": [
    "C16_success",
    "C16_failure_refuted",
    "C16_exhausted"
   ],
   "note": "Over all histories of the modelled control flow of main_iter (every answer of the called routines that their contracts in SpecMain.v allow).  C16_failure_partial (with locking a failure means that some pair is missing) goes beyond the property; the same without locking is refuted: a failed final test followed by reaching the limit returns -3 with initSize = numEvals and no pair returned."
  },
  {
   "property": "C17",
   "status": "partial",
   "theorems": [
    "C17_inner",
    "C17_outer",
    "C17_stop",
    "C17_overshoot",
    "C17_overshoot_inner",
    "C17_overshoot_refuted"
   ],
   "note": "No expansion step is done once a limit is reached, for all histories. The overshoot is at most one block plus the unused initial guesses (plus one basis without locking) without the inner solver; with it the limit may be exceeded by a factor of the block size (refuted by an example). Products with B count, those of an orthogonalization being at most a number per vector that is a parameter (finite by C27_bounded). The initial basis ignores the limit."
  },
  {
   "property": "C18",
   "status": "proved",
   "theorems": [
    "C18_matrix_product",
    "C18_mass_product",
    "C18_preconditioner_product",
    "C18_no_preconditioner",
    "C18_operator_error",
    "C18_counters",
    "C18_mass_precision_refuted"
   ],
   "note": "Typed buffers with explicit allocation; arbitrary, history-dependent user callbacks; arbitrary sequences of requests. Padding rows and processes with zero rows are not modelled."
  },
  {
   "property": "C19",
   "status": "proved",
   "theorems": [
    "C19_no_double_release",
    "C19_release_finds_block",
    "C19_success_no_leak",
    "C19_failure_releases_work",
    "C19_failed_step_releases",
    "C19_allocation_survives",
    "C19_leave_frame",
    "C19_failed_call_leaks_refuted",
    "C19_record_failure_refuted",
    "C19_outermost_keep_refuted",
    "C19_step_releases"
   ],
   "note": "Release build (NDEBUG). A failed call leaks the two context blocks because CHKERRVAL leaves ctx.mm on a dead frame; refuted for every failing first step."
  },
  {
   "property": "C20",
   "status": "proved",
   "theorems": [
    "C20_get_reads_member",
    "C20_set_writes_member",
    "C20_set_then_get",
    "C20_refused_set_changes_nothing",
    "C20_names_one_to_one",
    "C20_info_by_label",
    "C20_info_by_name",
    "C20_constants_by_name",
    "C20_enum_names_invert",
    "C20_missing_getters_refuted",
    "C20_missing_setters_refuted",
    "C20_negative_overflow_refuted",
    "C20_stale_label_wins_refuted",
    "C20_nameless_labels_refuted",
    "C20_name_only_query_refuted",
    "C20_enum_members_missing_refuted",
    "C20_constants_refused"
   ],
   "note": "Specification read off the header alone; the switch statements are transcribed case by case."
  },
  {
   "property": "C21",
   "status": "proved",
   "theorems": [
    "C21_products_match",
    "C21_products_counted",
    "C21_guesses_used",
    "C21_terminates",
    "C21_guesses_dropped_refuted",
    "C21_basis_size"
   ],
   "note": "Orthogonalization, random vectors and error codes are arbitrary oracles restricted to their column range; the matrix acts column by column."
  },
  {
   "property": "C22",
   "status": "partial",
   "theorems": [
    "C22_phase",
    "C22_history",
    "C22_runs",
    "C22_x_partial",
    "C22_x_refuted",
    "C22_Bx_refuted",
    "C22_scalars_partial",
    "C22_scalars_refuted"
   ],
   "note": "Compaction and the alignment of the permuted arrays are proved for all histories. The part about every per-system quantity is false of the code: x is permuted more than once when a projector is x itself, B*x is never permuted, and the scalars computed by position are read by system; the refuted theorems give reachable witnesses and the partial ones say exactly when the values are right."
  },
  {
   "property": "C23",
   "status": "proved",
   "theorems": [
    "C23_merge_complete_and_ordered",
    "C23_merge_with_nan_leaves_holes_refuted"
   ],
   "note": "For totally ordered values; with NaN the code leaves entries unwritten (refutation)."
  },
  {
   "property": "C24",
   "status": "proved",
   "theorems": [
    "C24_selection",
    "C24_nothing_passed_over",
    "C24_limits",
    "C24_block_buffer_refuted",
    "C24_norm_floor_refuted",
    "C24_shift_limit_when",
    "C24_one_per_shift",
    "C24_one_per_shift_refuted",
    "C24_capacity"
   ],
   "note": "prepare_candidates with arbitrary outcomes of the convergence checks, residuals and side tests; total correctness including bounds of every array. Two defects are refuted: work arrays too short when several shifts are used with a kept QR, and the floor on residual norms applied to the wrong range. prepare_vecs (recombination of coefficient vectors) is not part of this model."
  },
  {
   "property": "C25",
   "status": "partial",
   "theorems": [
    "C25_states",
    "C25_moves",
    "C25_evidence",
    "C25_gdk_only",
    "C25_average",
    "C25_recommendation",
    "C25_slowdown",
    "C25_exit_refuted",
    "C25_first_phase_refuted",
    "C25_processes_refuted",
    "C25_window_refuted",
    "C25_permanent",
    "C25_window_once"
   ],
   "note": "Protocol, evidence for each switch, the recommendation at the regular exits and the bounds of the slowdown are proved for every history of measurements. Refuted: an exit through a limit after a reset leaves an internal state instead of a recommendation; the first GD+k phase runs with another RightX than later ones; one bit of the decision is local to a process; the averaging window can make the JDQMR rate undefined for ever. Rates are rationals in the model, floating point only in C25_slowdown (any comparison)."
  },
  {
   "property": "C26",
   "status": "partial",
   "theorems": [
    "C26_returned",
    "C26_guesses",
    "C26_soft_partial",
    "C26_locking_refuted",
    "C26_conversion_refuted",
    "C26_room"
   ],
   "note": "Every pair counted as returned is in the caller's arrays, converted, and nothing else is changed there, for all sizes, counts and conversions; without locking a successful call counts all wanted pairs.  With locking a call that found every wanted pair counts none as returned, so that nothing is converted back (refuted for every such run).  Missing: leading dimensions (see C37_leading_dimension_refuted) and the bound between the counts after failures without locking."
  },
  {
   "property": "C27",
   "status": "proved",
   "theorems": [
    "C27_bounded",
    "C27_code",
    "C27_rank"
   ],
   "note": "Any arithmetic: the operations are arbitrary functions."
  },
  {
   "property": "C28",
   "status": "proved",
   "theorems": [
    "C28_uniform_outcome",
    "C28_detects_hash_differences",
    "C28_no_false_alarm",
    "C28_checksum_separates",
    "C28_collision_refuted",
    "C28_false_alarm_refuted"
   ],
   "note": "The second half of the claim needs the broadcast to preserve the bits of the hash; the refutation shows the emulated broadcast does not."
  },
  {
   "property": "C29",
   "status": "proved",
   "theorems": [
    "C29_update_projection_reduces"
   ],
   "note": "Symmetric multi-process branch of the projection update."
  },
  {
   "property": "C30",
   "status": "proved",
   "theorems": [
    "C30_copy_overlapping",
    "C30_copy_disjoint",
    "C30_shift_one_column_refuted",
    "C30_shift_rows_refuted"
   ],
   "note": "The copy routine is modelled as an ordered program of element moves and memmoves; out-of-bounds is a distinct failure. The two excluded overlaps are shown to corrupt data."
  },
  {
   "property": "C31",
   "status": "proved",
   "theorems": [
    "C31_every_member_set",
    "C31_documented_values",
    "C31_undecided_values",
    "C31_list_complete",
    "C31_documented_values_refuted",
    "C31_global_sum_refuted"
   ],
   "note": "Over arbitrary previous memory. The members whose documented value differs from the code are listed and refuted."
  },
  {
   "property": "C32",
   "status": "proved",
   "theorems": [
    "C32_preset_settings",
    "C32_preset_sizes",
    "C32_locking_refuted",
    "C32_jdqmr_etol_refuted",
    "C32_dynamic_refuted",
    "C32_zero_kept_refuted",
    "C32_mass_matrix_retain_refuted"
   ],
   "note": "Settings transcribed in SpecPresets.v; documentation sentences the code does not follow are refuted."
  },
  {
   "property": "C33",
   "status": "proved",
   "theorems": [
    "C33_map_is_permutation",
    "C33_map_rational",
    "C33_zero_vector_refuted"
   ],
   "note": "map_vecs over any comparison; rational instance. NaN and zero columns are outside the hypothesis, the zero column is refuted."
  },
  {
   "property": "C34",
   "status": "proved",
   "theorems": [
    "C34_orthonormal",
    "C34_factors",
    "C34_replaced",
    "C34_real"
   ],
   "note": "For every space satisfying the laws of exact arithmetic; C34_real instantiates real vectors of any length (standard library axioms of the reals). The inner products and updates are taken as exact; C55_ortho_pass and C55_leading_refuted say for which layouts the kernels make them so."
  },
  {
   "property": "C35",
   "status": "partial",
   "theorems": [
    "C35_block_partial",
    "C54_recovered",
    "C35_block_refuted"
   ],
   "note": "Holds when the loop ends by its test: for the control in C35_block_partial and for the matrices in C54_recovered; refuted when it ends by the limit of five iterations (one transformation is in R but not in V)."
  },
  {
   "property": "C36",
   "status": "partial",
   "theorems": [
    "C36_progress",
    "C36_bounded",
    "C36_terminates_partial",
    "C36_wholespace_refuted",
    "C36_failed_refuted"
   ],
   "note": "Ends within an explicit number of turns if every restart leaves room in the basis, which holds if no pair fails its test when locked and the basis never spans the whole space.  Otherwise the call may restart for ever (two refutations).  Missing: a bound when only the products are limited."
  },
  {
   "property": "C37",
   "status": "partial",
   "theorems": [
    "C37_locking",
    "C37_count",
    "C37_permuted",
    "C37_quick_refuted",
    "C37_unset_refuted",
    "C37_leading_dimension_refuted"
   ],
   "note": "With locking and candidates left the arrays are exactly as stated; refuted with an empty basis (the count stays zero) and without locking (more pairs returned than the basis ever had vectors); the final permutation uses the caller's leading dimension on a converted copy.  Real values are integers in the model of the copy loop."
  },
  {
   "property": "C38",
   "status": "partial",
   "theorems": [
    "C38_AtA_in",
    "C38_AtA",
    "C38_AAt_in",
    "C38_AAt_partial",
    "C38_augmented_in",
    "C38_augmented",
    "C38_hybrid",
    "C38_AAt_refuted",
    "C38_AAt_overrun_refuted"
   ],
   "note": "Proved for A'A, for the augmented problem and for the two stages together, for all sizes and contents. For AA' proved without constraints or when the process stores as many rows as columns; otherwise false of the code: the right vectors are written at an offset counted with the rows instead of the columns, over the right constraints (C38_AAt_refuted) or past the end of svecs (C38_AAt_overrun_refuted). The eigensolver is any function that keeps its constraints and stays within its array; the exactness of undoing the scaling and unit constraints are hypotheses of the augmented theorems."
  },
  {
   "property": "C39",
   "status": "partial",
   "theorems": [
    "C39_completed",
    "C39_checked",
    "C39_rejected",
    "C39_one_stage",
    "C39_two_stages",
    "C39_count",
    "C39_decode",
    "C39_defined",
    "C39_resNorms_refuted",
    "C39_values",
    "C39_norm_meaning"
   ],
   "note": "Proved for all arguments, answers of the eigensolver and of the convergence test. The last clause is false of the code for two stages: the residual norms of the triplets carried over from the first stage are multiplied by sqrt(2) at the end although they already are norms of the triplet (C39_resNorms_refuted). Failures of allocations and of the user's functions inside the wrapper are not modelled."
  },
  {
   "property": "C40",
   "status": "proved",
   "theorems": [
    "C40_AtA",
    "C40_AAt",
    "C40_augmented",
    "C40_error",
    "C40_no_block",
    "C40_limit"
   ],
   "note": "The user's function acts on columns; the frame left behind by an error exit is not modelled. C40_no_block shows why maxBlockSize must be positive."
  },
  {
   "property": "C41",
   "status": "partial",
   "theorems": [
    "C41_totals",
    "C41_seen",
    "C41_broadcasts",
    "C41_single",
    "C41_stage1_locked",
    "C41_stage1_values",
    "C41_stage1_block",
    "C41_stage1_lock_event",
    "C41_stage1_norms",
    "C41_augmented_norm",
    "C41_stage2",
    "C41_broadcasts_refuted",
    "C41_failed_report_refuted",
    "C41_stage1_norms_refuted",
    "C41_augmented_refuted",
    "C41_stage2_refuted"
   ],
   "note": "Faults: the statistics of broadcasts are not reset (C41_broadcasts_refuted); a failed report counts a stage twice (C41_failed_report_refuted); in the first of two stages the norms of the basis are divided by the values of other triplets once a pair is locked (C41_stage1_norms_refuted); with the augmented matrix half of the norm is shown, and in one stage values never set (C41_augmented_refuted); in the second stage the count of converged triplets leaves out those of the first (C41_stage2_refuted)."
  },
  {
   "property": "C42",
   "status": "partial",
   "theorems": [
    "C42_stage2",
    "C42_stage1",
    "C42_squares",
    "C42_first_call",
    "C42_released",
    "C42_overflow_refuted",
    "C42_later_call_refuted",
    "C42_no_shifts",
    "C42_kept"
   ],
   "note": "Two faults: with more shifts than numSvals the squares are written past the array (C42_overflow_refuted), and a later call with the same structure keeps the shifts of the first one in stage two (C42_later_call_refuted). Real arithmetic; qsort taken as sorting."
  },
  {
   "property": "C43",
   "status": "partial",
   "theorems": [
    "C43_AtA",
    "C43_AAt",
    "C43_augmented",
    "C43_callback",
    "C43_callback_augmented",
    "C43_norm_positive",
    "C43_machine_refuted",
    "C43_restore_refuted",
    "C43_absent",
    "C43_absent_augmented"
   ],
   "note": "Exact reals, one process, no conversion between precisions. Two exceptions: at the limit of the machine precision a pair of the normal equations is accepted whatever the norm of its triplet (C43_machine_refuted), and aNorm is not restored if the caller's test fails (C43_restore_refuted)."
  },
  {
   "property": "C44",
   "status": "proved",
   "theorems": [
    "C44_update",
    "C44_image",
    "C44_norms"
   ],
   "note": "Exact arithmetic over any type of scalars whose sums may be regrouped. The GPU branch is not modelled; the reduction of the Gram and projected matrices over processes is elementwise and is not modelled."
  },
  {
   "property": "C45",
   "status": "partial",
   "theorems": [
    "C45_extreme",
    "C45_interior",
    "C45_locked",
    "C45_null_refuted",
    "C45_single_refuted",
    "C45_zero_refuted"
   ],
   "note": "Exact reals. The block is taken to be the first unconverged pairs, which is what C24 shows of the selection; that the shifts follow their vectors while the inner solver drops systems is C22 (the array of shifts is one of the permuted arrays). Missing: the three exceptions are defects of the code, stated as refuted theorems. The non-Hermitian build is not modelled."
  },
  {
   "property": "C46",
   "status": "partial",
   "theorems": [
    "C46_documented_values",
    "C46_every_member_set",
    "C46_documented_values_refuted",
    "C46_locking_issue_refuted"
   ],
   "note": "The documented values hold for all members but four; stats.lockingIssue is never set."
  },
  {
   "property": "C47",
   "status": "partial",
   "theorems": [
    "C47_total",
    "C47_methods",
    "C47_default_method",
    "C47_settings_kept",
    "C47_problem",
    "C47_choices",
    "C47_callbacks",
    "C47_local_rows",
    "C47_idempotent",
    "C47_precondition",
    "C47_second_stage_guesses",
    "C47_change_method_refuted",
    "C47_late_preconditioner_refuted",
    "C47_late_sizes_refuted",
    "C47_unknown_preset_refuted",
    "C47_block_size_refuted"
   ],
   "note": "Everything but the stated exceptions is proved for all structures; the local rows only if they were not set before. The two products of doubles (norm squared, norm times root of two) are arbitrary functions."
  },
  {
   "property": "C48",
   "status": "proved",
   "theorems": [
    "C48_labels_cover",
    "C48_get_reads_member",
    "C48_get_stages",
    "C48_set_writes_member",
    "C48_set_then_get",
    "C48_refused_set_changes_nothing",
    "C48_missing_setters_refuted",
    "C48_negative_overflow_refuted",
    "C48_names_one_to_one",
    "C48_info_by_label",
    "C48_info_by_name",
    "C48_info_unknown_refused",
    "C48_iseed_arity_refuted",
    "C48_stale_label_wins_refuted",
    "C48_name_only_query_refuted",
    "C48_constants_by_name",
    "C48_other_constants",
    "C48_enum_names",
    "C48_preset_names",
    "C48_enum_members_missing_refuted"
   ],
   "note": "Proved for every structure, label, value and name, with the exceptions named in the property, each of which is proved by a theorem with the suffix _refuted."
  },
  {
   "property": "C49",
   "status": "partial",
   "theorems": [
    "C49_setup_fits",
    "C49_left_operator",
    "C49_left_orthogonal",
    "C49_right_operator",
    "C49_right_orthogonal",
    "C49_update_factors",
    "C49_one_constraint_kept",
    "C49_first_pair_kept",
    "C49_two_vectors_refuted",
    "C49_restart_without_B_refuted",
    "C49_constraint_and_pair_refuted",
    "C49_B_without_locking_refuted",
    "C49_olsen",
    "C49_gd",
    "C49_gd_error",
    "C49_cheap_olsen_up_to_x",
    "C49_skew_without_right_accepted_refuted",
    "C49_olsen_error_lost_refuted"
   ],
   "note": "Proved over any field with conjugation, in exact arithmetic and on whole vectors. The exceptions of the statement are the _refuted theorems. LAPACK's factorizations are assumed to solve the systems they factor, and without a mass matrix the preconditioner is assumed Hermitian. The iterations of the inner solver between the applications are the subject of C22."
  },
  {
   "property": "C50",
   "status": "proved",
   "theorems": [
    "C50_rayleigh_ritz",
    "C50_refined",
    "C50_refined_minimal",
    "C50_harmonic",
    "C50_prepared_vectors",
    "C50_preparation_ends",
    "C50_update_Q",
    "C50_harmonic_order",
    "C50_guesses"
   ],
   "note": "Exact arithmetic over a field with conjugation; the minimality of the refined vectors over the reals. LAPACK, Bortho_local and ortho_block are assumed right when they answer; the order of the Ritz values for each target is C11."
  },
  {
   "property": "C51",
   "status": "partial",
   "theorems": [
    "C51_restart_RR",
    "C51_rebuilt_factorization",
    "C51_restart_harmonic",
    "C51_restart_refined",
    "C51_shift_change_found",
    "C51_shift_change_found_refined",
    "C51_shift_change_missed_refuted",
    "C51_restart_refined_zero_refuted",
    "C51_restart_refined_explicit_refuted"
   ],
   "note": "Exact arithmetic; LAPACK, ortho_block and the small QR are assumed right when they answer. Refined restarts without a change of shift are proved when Q is kept orthonormal and no singular value is zero; the other two cases are refuted, and so is the detection of a new shift by restart_RR when the threshold reaches one. The coefficient vectors beyond those kept are related to the new singular vectors only when the latter fall in two blocks."
  },
  {
   "property": "C52",
   "status": "partial",
   "theorems": [
    "C52_every_history",
    "C52_locked",
    "C52_candidates",
    "C52_locked_forever",
    "C52_returned_norms",
    "C52_returned_pairs",
    "C52_lock_permutations",
    "C52_soft_permutations",
    "C52_returned_pairs_limit_refuted",
    "C52_returned_pairs_shift_refuted",
    "C52_marked_beyond_refuted"
   ],
   "note": "Proved for the Rayleigh-Ritz extraction with implicit orthogonality, in exact arithmetic. The three exceptions are refuted on the model. Not covered: the refined and harmonic extractions and the explicit mode across steps (each single step is C50 and C51)."
  },
  {
   "property": "C53",
   "status": "partial",
   "theorems": [
    "C53_ritz_value",
    "C53_linear_residual",
    "C53_eigen_residual",
    "C53_returned",
    "C53_solver_ritz_value",
    "C53_solver_linear_residual",
    "C53_solver_eigen_residual",
    "C53_linear_residual_bound",
    "C53_solver_residual_bound",
    "C53_tested_norm_refuted",
    "C53_preset_value_refuted",
    "C53_mass_ritz_value",
    "C53_mass_norm",
    "C53_mass_norm_one",
    "C53_mass_norm_refuted",
    "C53_mass_value_refuted",
    "C53_mass_residual_refuted"
   ],
   "note": "Proved for one vector of the block and exact arithmetic; the squares of tau, Theta and c are followed. Partial because uses the code makes are refuted: sqrt(numIts) tau is not a bound of the linear residual; with the presets JDQMR and JDQMR_ETol and a preconditioner the value followed is not a Rayleigh quotient. With a mass matrix the value followed is the Rayleigh quotient if the directions are B-orthogonal to x, which the right projection of the code does not ensure (refuted); the residual norm followed is not that of the corrected vector even then (refuted); the B-norm of the correction is right if ldOPs is the number of rows, otherwise wrong because two arguments are swapped (refuted)."
  },
  {
   "property": "C54",
   "status": "partial",
   "theorems": [
    "C54_recovered",
    "C54_rank",
    "C54_inner_products",
    "C54_orthonormal",
    "C54_basis_orthonormal",
    "C54_history",
    "C54_single",
    "C54_overflow_refuted",
    "C54_single_refuted"
   ],
   "note": "Exact arithmetic; LAPACK on small matrices by its contract. Partial: the recovery of the input is proved when the loop is ended by its test (at the limit it is refuted, C35), the inner products when no norm overflows (the guard against overflow is refuted), and the single projection without an explicit Q'BQ (with one it is refuted)."
  },
  {
   "property": "C55",
   "status": "partial",
   "theorems": [
    "C55_vectors",
    "C55_gemv",
    "C55_gemm",
    "C55_gemm_dhd",
    "C55_gemm_ddh",
    "C55_gramm",
    "C55_submatrix",
    "C55_gemv_ddh",
    "C55_gemv_dhd",
    "C55_projector",
    "C55_ortho_pass",
    "C55_too_large",
    "C55_one_row_refuted",
    "C55_empty_process_refuted",
    "C55_leading_refuted",
    "C55_long_refuted"
   ],
   "note": "Exact arithmetic; XGEMM, XGEMV, XDOT, XAXPY, XSCAL by their contract. Partial: refuted for a complex product of one row and one column without conjugation, for a process without rows in the projector of the inner solver, for leading dimensions larger than the local rows in the one-by-one orthonormalisation with one type, and for strided vectors of the largest BLAS size or more."
  },
  {
   "property": "C56",
   "status": "partial",
   "theorems": [
    "C56_update",
    "C56_kernel",
    "C56_callers",
    "C56_restart",
    "C56_last_row_refuted",
    "C56_distribution"
   ],
   "note": "Exact arithmetic; sums over processes by the contract of globalSumReal. C56_update holds for every call whose outputs do not overlap what is read later; C56_callers: the solver's calls are of that kind. Partial: refuted in complex arithmetic for a single column when the local rows are one more than a multiple of 512: the last component of the Ritz vector and of its residual come out from the conjugates (C56_last_row_refuted); the raising of norms to the estimated error is not in this model."
  },
  {
   "property": "C57",
   "status": "partial",
   "theorems": [
    "C57_block",
    "C57_locking",
    "C57_restart",
    "C57_device_gramm",
    "C57_upper_only_refuted",
    "C57_block_size"
   ],
   "note": "Proved from the update of the vectors to the new basis, block, norms, locked vectors and matrices for all flags, sizes and processes of host builds. Device builds compute only the upper part of the Gram matrix (C57_device_gramm) and the claim fails there (C57_upper_only_refuted). Not included: the ordered insertion of the locked values (C10) and rounding."
  },
  {
   "property": "C58",
   "status": "partial",
   "theorems": [
    "C58_projected",
    "C58_previous",
    "C58_extremes",
    "C58_failure_refuted"
   ],
   "note": "Proved when the computation on process 0 succeeds. When it fails the claim does not hold for more than one process (C58_failure_refuted)."
  },
  {
   "property": "C59",
   "status": "partial",
   "theorems": [
    "C59_calls",
    "C59_restart",
    "C59_candidates",
    "C59_no_vector",
    "C59_verify",
    "C59_type",
    "C59_practical_refuted",
    "C59_type_refuted"
   ],
   "note": "Proved for the vectors to be locked, the candidates and the final verification. Does not hold for the check after orthogonalization (C59_practical_refuted) nor for a declared type different from the working one (C59_type_refuted)."
  },
  {
   "property": "C60",
   "status": "partial",
   "theorems": [
    "C60_all_return",
    "C60_agree",
    "C60_difference_rejected",
    "C60_accepted",
    "C60_alone_refuted",
    "C60_unchecked_refuted"
   ],
   "note": "Proved for processes with the same callbacks and numProcs greater than 1. The exceptions in parentheses are C60_alone_refuted and C60_unchecked_refuted."
  },
  {
   "property": "C61",
   "status": "partial",
   "theorems": [
    "C61_outer_arguments",
    "C61_inner_arguments",
    "C61_converged",
    "C61_locked",
    "C61_locked_LSRes_refuted",
    "C61_outer_each",
    "C61_outer",
    "C61_late",
    "C61_outer_numbers",
    "C61_inner_each",
    "C61_inner_exact"
   ],
   "note": "Partial because the claim is refuted in one point: the residual of the linear system is passed as zero for the event of a locked pair. Errors of callbacks between reports are not modelled."
  },
  {
   "property": "C62",
   "status": "partial",
   "theorems": [
    "C62_heev",
    "C62_heev_reported",
    "C62_hegv",
    "C62_hegv_standard",
    "C62_gesvd",
    "C62_solve",
    "C62_solve_once",
    "C62_solve_lu",
    "C62_potrf_reported",
    "C62_empty",
    "C62_trsm",
    "C62_laws_hold",
    "C62_hegv_unreported_refuted",
    "C62_solve_again_refuted",
    "C62_trsm_rows_refuted"
   ],
   "note": "Proved for every LAPACK that keeps what it documents. Partial because the claim is refuted for the variants USE_XHEGV and USE_ZGESV of the R package and for triangular solves with more rows than the integers of BLAS hold. The sizes of the working arrays and the Schur decomposition (normal matrices) are not modelled."
  },
  {
   "property": "C63",
   "status": "partial",
   "theorems": [
    "C63_accepted",
    "C63_problem",
    "C63_wanted",
    "C63_arrays",
    "C63_options",
    "C63_sizes",
    "C63_returned",
    "C63_raised",
    "C63_matvec",
    "C63_unraised_refuted",
    "C63_refusal_returned_refuted",
    "C63_arrays_too_small_refuted",
    "C63_preset_replaces_refuted",
    "C63_type",
    "C63_objects"
   ],
   "note": "Proved for every solver and every argument. Partial because the claim is refuted for errors other than the limit being reached, for numEvals among the named options and for presets. The conversion of types by numpy, return_history and the contents of stats other than rnorms are not modelled."
  },
  {
   "property": "C64",
   "status": "partial",
   "theorems": [
    "C64_guesses",
    "C64_constraints_partial",
    "C64_returned",
    "C64_raised",
    "C64_precond_partial",
    "C63_matvec",
    "C64_constraints_alone_refuted",
    "C64_constraints_repeated_refuted",
    "C64_one_side_refuted",
    "C64_unconverged_unraised_refuted",
    "C64_maxiter_refuted",
    "C64_precond_order_refuted"
   ],
   "note": "Partial because the claim is refuted for constraints with fewer guesses, for guesses on one side, for triplets that do not converge, for maxiter and for preconditioners that return by rows. The callback of the matrix product is c_matvec_gen_numpy (C63_matvec), shared by both functions. Conversion of types by numpy and stats are not modelled."
  },
  {
   "property": "C65",
   "status": "partial",
   "theorems": [
    "C65_members",
    "C65_svds_members",
    "C65_constants",
    "C65_svds_constants",
    "C65_no_conflict",
    "C65_set_then_get",
    "C65_svds_set_then_get",
    "C65_shift",
    "C65_undeclared_refuted",
    "C65_no_memory_refuted",
    "C65_shifts_member"
   ],
   "note": "Partial because the claim is refuted for the constants that are missing and for memory failures at the start. The declarations of the interfaces of Fortran 90 (types of the arguments) are not modelled."
  },
  {
   "property": "C66",
   "status": "partial",
   "theorems": [
    "C66_A",
    "C66_function",
    "C66_B_partial",
    "C66_B_bounds_refuted",
    "C66_B_wrong_refuted",
    "C66_arrays",
    "C66_target",
    "C66_bad_target",
    "C66_shifts",
    "C66_LM_refuted",
    "C66_returned",
    "C66_raised_partial",
    "C66_message_refuted",
    "C66_prec",
    "C66_prec_matrix_refuted",
    "C66_test_partial",
    "C66_test_refuted",
    "C66_function_default",
    "C66_shape"
   ],
   "note": "Partial because the claim is refuted for a mass matrix of another kind than A, for which=LM without shifts, for a matrix prec, for the vector given to a convergence test, and for the reason of a failure when nothing converged. Options by name, statistics and the storage of classes of the package Matrix are not modelled; products of CHOLMOD are assumed exact."
  },
  {
   "property": "C67",
   "status": "partial",
   "theorems": [
    "C67_products",
    "C67_function",
    "C67_arrays",
    "C67_right_only",
    "C67_left_only_partial",
    "C67_left_only_refuted",
    "C67_returned",
    "C67_raised",
    "C67_prec",
    "C67_function_one_sided"
   ],
   "note": "Partial because the claim is refuted for right vectors computed from left ones of a complex matrix. Options by name, statistics and the storage of classes of the package Matrix are not modelled; products of CHOLMOD are assumed exact."
  },
  {
   "property": "C68",
   "status": "partial",
   "theorems": [
    "C68_products",
    "C68_rectangular",
    "C68_function_partial",
    "C68_sparse_refuted",
    "C68_arguments",
    "C68_shifts",
    "C68_shifts_set",
    "C68_no_shifts_refuted",
    "C68_prec",
    "C68_no_prec_refuted",
    "C68_guesses",
    "C68_int_options_partial",
    "C68_true_refuted",
    "C68_infinite_refuted",
    "C68_test_partial",
    "C68_test_fraction_refuted",
    "C68_test_single_refuted",
    "C68_returned",
    "C68_raised",
    "C68_norms_partial",
    "C68_columns_partial",
    "C68_norms_refuted",
    "C68_columns_refuted",
    "C68_prec_function",
    "C68_unknown_target",
    "C68_counted"
   ],
   "note": "Partial because the claim is refuted for the norms of inner targets, for the number of vectors with more guesses than values, for the documented [] as shifts and as preconditioner, for true, Inf and large values of options, for sparse answers of functions, and for convergence tests that answer fractions or run in single precision. Graphics processors, history, profiles and statistics are not modelled; products and left divisions of MATLAB are assumed exact."
  },
  {
   "property": "C69",
   "status": "partial",
   "theorems": [
    "C69_products",
    "C69_function_partial",
    "C69_targets",
    "C69_prec_matrix_partial",
    "C69_prec_function_partial",
    "C69_prec_factors_partial",
    "C69_prec_R_partial",
    "C69_prec_struct",
    "C69_prec_none",
    "C69_trial",
    "C69_rectangular_refuted",
    "C69_constraints",
    "C69_guesses_partial",
    "C69_guesses_paired",
    "C69_guesses_both_refuted",
    "C69_guesses_left_refuted",
    "C69_arrays",
    "C69_vectors",
    "C69_returned",
    "C69_raised",
    "C69_norms_partial",
    "C69_norms_refuted"
   ],
   "note": "Proved for matrices and for functions with answers that are not sparse. The code violates the rest: preconditioners given as matrix, factors or function for matrices that are not square (C69_rectangular_refuted), right guesses next to left ones without constraints (C69_guesses_both_refuted), left guesses alone with constraints (C69_guesses_left_refuted), norms of sorted triplets (C69_norms_refuted). Left division is taken to be exact; a preconditioner of a single entry, graphics processors, history, profiles, options by name and the convergence test are not modelled."
  },
  {
   "property": "C70",
   "status": "partial",
   "theorems": [
    "C70_python_partial",
    "C70_stages",
    "C70_same_text",
    "C70_r_partial",
    "C70_matlab_partial",
    "C70_matlab_stages",
    "C70_named",
    "C70_all_named",
    "C70_distinct",
    "C70_projection_refuted",
    "C70_matlab_procs_refuted"
   ],
   "note": "Proved for every code that the models of the two checks answer, for all parameters, and for the failures of include/primme.h, but for the two codes for which the code violates the property: -39 (C70_projection_refuted) and, in MATLAB, -6 (C70_matlab_procs_refuted)."
  },
  {
   "property": "C71",
   "status": "partial",
   "theorems": [
    "C71_eigs",
    "C71_eigs_accepted",
    "C71_eigs_once",
    "C71_eigs_documented_partial",
    "C71_profiler_refuted",
    "C71_scheme_refuted",
    "C71_svds",
    "C71_svds_accepted",
    "C71_svds_documented_partial",
    "C71_svds_profiler_refuted",
    "C71_stage_refuted"
   ],
   "note": "Proved for all options with distinct names of fields, but for the options for which the code violates the property: profiler (C71_profiler_refuted, C71_svds_profiler_refuted), scheme (C71_scheme_refuted), and tol, maxit and p for the stages (C71_stage_refuted). Errors for values of the wrong type are not modelled, nor are structs called primme inside other structs."
  }
 ]
}