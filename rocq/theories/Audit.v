(** What every theorem of MANIFEST.json rests on: generated from it. *)
From Verif Require PropsParams.
From Verif Require PropsParallel.
From Verif Require PropsLinalg.
From Verif Require PropsOrder.
From Verif Require PropsRestart.
From Verif Require PropsConv.
From Verif Require PropsMain.
From Verif Require PropsOperators.
From Verif Require PropsFrames.
From Verif Require PropsFrames2.
From Verif Require PropsMembers.
From Verif Require PropsInit.
From Verif Require PropsInner.
From Verif Require PropsSelect.
From Verif Require PropsSelect2.
From Verif Require PropsDyn.
From Verif Require PropsReturn.
From Verif Require PropsOrtho.
From Verif Require PropsCopy.
From Verif Require PropsPresets.
From Verif Require PropsSvqb2.
From Verif Require PropsLoop.
From Verif Require PropsSvds.
From Verif Require PropsSvdsCtl.
From Verif Require PropsSvdsOp.
From Verif Require PropsSvdsMon.
From Verif Require PropsSvdsConv.
From Verif Require PropsUpdate.
From Verif Require PropsShift.
From Verif Require PropsSvdsParams.
From Verif Require PropsSvdsMembers.
From Verif Require PropsProj.
From Verif Require PropsExtract.
From Verif Require PropsExtract2.
From Verif Require PropsReproj.
From Verif Require PropsReproj2.
From Verif Require PropsReproj3.
From Verif Require PropsReproj4.
From Verif Require PropsStep2.
From Verif Require PropsStep3.
From Verif Require PropsStep4.
From Verif Require PropsQmr.
From Verif Require PropsQmr2.
From Verif Require PropsQmr3.
From Verif Require PropsQmr4.
From Verif Require PropsQmr5.
From Verif Require PropsSvqb3.
From Verif Require PropsBlas2.
From Verif Require PropsBlas3.
From Verif Require PropsBlas4.
From Verif Require PropsVwxr2.
From Verif Require PropsVwxr3.
From Verif Require PropsMove2.
From Verif Require PropsMove4.
From Verif Require PropsMove5.
From Verif Require PropsMove6.
From Verif Require PropsBrcast.
From Verif Require PropsTest.
From Verif Require PropsTest2.
From Verif Require PropsCoherence.
From Verif Require PropsMonitor.
From Verif Require PropsMonitor2.
From Verif Require PropsMonitor3.
From Verif Require PropsMonitor4.
From Verif Require PropsLapack.
From Verif Require PropsLapack2.
From Verif Require PropsPy.
From Verif Require PropsPy3.
From Verif Require PropsPy2.
From Verif Require PropsFortran.
From Verif Require PropsR.
From Verif Require PropsR2.
From Verif Require PropsMat.
From Verif Require PropsMat2.
From Verif Require PropsMatSvds.
From Verif Require PropsMatSvds2.
From Verif Require PropsErrors.
From Verif Require PropsMatOptions.

(* C01 *)
Print Assumptions PropsParams.C01_set_method_result.
Print Assumptions PropsParams.C01_presets_complete.
Print Assumptions PropsParams.C01_presets_keep_problem.
Print Assumptions PropsParams.C01_block_size_zero_refuted.
(* C02 *)
Print Assumptions PropsParams.C02_defaults_keep_choices.
Print Assumptions PropsParams.C02_defaults_without_method.
Print Assumptions PropsParams.C02_defaults_idempotent.
Print Assumptions PropsParams.C02_explicit_choice_overwritten_refuted.
(* C03 *)
Print Assumptions PropsParams.C03_defaults_accepted.
Print Assumptions PropsParams.C03_constrained_defaults_refuted.
Print Assumptions PropsParams.C03_large_block_defaults_refuted.
(* C04 *)
Print Assumptions PropsParams.C04_rejection_is_justified.
Print Assumptions PropsParams.C04_acceptance_is_justified.
Print Assumptions PropsParams.C04_accepts_exactly.
Print Assumptions PropsParams.C04_first_violation.
Print Assumptions PropsParams.C04_restart_equal_n_refuted.
Print Assumptions PropsParams.C04_undocumented_rejections_refuted.
(* C05 *)
Print Assumptions PropsParams.C05_failed_call_returns_none.
Print Assumptions PropsParams.C05_rejected_call.
Print Assumptions PropsParams.C05_null_query.
(* C06 *)
Print Assumptions PropsParams.C06_seeds_legal.
Print Assumptions PropsParams.C06_default_last_seed_odd.
Print Assumptions PropsParams.C06_default_seeds_distinct.
Print Assumptions PropsParams.C06_user_even_seed_refuted.
Print Assumptions PropsParams.C06_negative_rank_refuted.
(* C07 *)
Print Assumptions PropsParallel.C07_all_or_none.
Print Assumptions PropsParallel.C07_mixed_failure_blocks_refuted.
Print Assumptions PropsParallel.C07_callback_error_disagrees_refuted.
Print Assumptions PropsParallel.C07_failed_sum.
(* C08 *)
Print Assumptions PropsParallel.C08_broadcast_by_sum.
Print Assumptions PropsParallel.C08_broadcast_by_callback.
Print Assumptions PropsParallel.C08_single_process.
Print Assumptions PropsParallel.C08_no_callback_refuted.
(* C09 *)
Print Assumptions PropsLinalg.C09_permute_vecs_in_place.
Print Assumptions PropsLinalg.C09_permute_vecs_rearranges.
Print Assumptions PropsLinalg.C09_compact_vecs_copy.
Print Assumptions PropsLinalg.C09_compact_vecs_same_buffer.
Print Assumptions PropsLinalg.C09_compact_vecs_same_buffer_unordered_refuted.
Print Assumptions PropsLinalg.C09_compact_vecs.
(* C10 *)
Print Assumptions PropsLinalg.C10_pack_unpack_roundtrip.
Print Assumptions PropsLinalg.C10_guard_too_weak_refuted.
Print Assumptions PropsLinalg.C10_shape_refused.
(* C11 *)
Print Assumptions PropsOrder.C11_ritz_pairs_rearranged_in_target_order.
(* C12 *)
Print Assumptions PropsOrder.C12_output_pairs_consistent.
Print Assumptions PropsOrder.C12_output_values_ordered.
(* C13 *)
Print Assumptions PropsRestart.C13_soft_locking.
Print Assumptions PropsRestart.C13_soft_kept.
Print Assumptions PropsRestart.C13_soft_sizes.
Print Assumptions PropsRestart.C13_locking.
Print Assumptions PropsRestart.C13_failed.
Print Assumptions PropsRestart.C13_merge.
Print Assumptions PropsRestart.C13_front.
Print Assumptions PropsRestart.C13_soft_guesses_refuted.
Print Assumptions PropsRestart.C13_recount.
(* C14 *)
Print Assumptions PropsRestart.C14_retained.
Print Assumptions PropsRestart.C14_fits.
Print Assumptions PropsRestart.C14_room.
Print Assumptions PropsRestart.C14_dimension.
Print Assumptions PropsRestart.C14_guesses.
Print Assumptions PropsRestart.C14_room_failed_refuted.
(* C15 *)
Print Assumptions PropsConv.C15_converged_evidence.
Print Assumptions PropsConv.C15_accepted_is_flagged.
Print Assumptions PropsConv.C15_wrong_side_unconverged.
Print Assumptions PropsConv.C15_practical_evidence.
Print Assumptions PropsConv.C15_put_aside.
Print Assumptions PropsConv.C15_only_checked_pairs.
Print Assumptions PropsConv.C15_in_bounds.
Print Assumptions PropsConv.C15_nan_not_converged.
Print Assumptions PropsConv.C15_no_looser_than_test.
Print Assumptions PropsConv.C15_orthogonality_raises_refuted.
Print Assumptions PropsConv.C15_practical_outgrown_refuted.
Print Assumptions PropsConv.C15_shift.
Print Assumptions PropsConv.C15_default_test.
(* C16 *)
Print Assumptions PropsMain.C16_success.
Print Assumptions PropsMain.C16_failure_refuted.
Print Assumptions PropsMain.C16_exhausted.
(* C17 *)
Print Assumptions PropsMain.C17_inner.
Print Assumptions PropsMain.C17_outer.
Print Assumptions PropsMain.C17_stop.
Print Assumptions PropsMain.C17_overshoot.
Print Assumptions PropsMain.C17_overshoot_inner.
Print Assumptions PropsMain.C17_overshoot_refuted.
(* C18 *)
Print Assumptions PropsOperators.C18_matrix_product.
Print Assumptions PropsOperators.C18_mass_product.
Print Assumptions PropsOperators.C18_preconditioner_product.
Print Assumptions PropsOperators.C18_no_preconditioner.
Print Assumptions PropsOperators.C18_operator_error.
Print Assumptions PropsOperators.C18_counters.
Print Assumptions PropsOperators.C18_mass_precision_refuted.
(* C19 *)
Print Assumptions PropsFrames.C19_no_double_release.
Print Assumptions PropsFrames.C19_release_finds_block.
Print Assumptions PropsFrames.C19_success_no_leak.
Print Assumptions PropsFrames.C19_failure_releases_work.
Print Assumptions PropsFrames.C19_failed_step_releases.
Print Assumptions PropsFrames.C19_allocation_survives.
Print Assumptions PropsFrames.C19_leave_frame.
Print Assumptions PropsFrames.C19_failed_call_leaks_refuted.
Print Assumptions PropsFrames.C19_record_failure_refuted.
Print Assumptions PropsFrames.C19_outermost_keep_refuted.
Print Assumptions PropsFrames2.C19_step_releases.
(* C20 *)
Print Assumptions PropsMembers.C20_get_reads_member.
Print Assumptions PropsMembers.C20_set_writes_member.
Print Assumptions PropsMembers.C20_set_then_get.
Print Assumptions PropsMembers.C20_refused_set_changes_nothing.
Print Assumptions PropsMembers.C20_names_one_to_one.
Print Assumptions PropsMembers.C20_info_by_label.
Print Assumptions PropsMembers.C20_info_by_name.
Print Assumptions PropsMembers.C20_constants_by_name.
Print Assumptions PropsMembers.C20_enum_names_invert.
Print Assumptions PropsMembers.C20_missing_getters_refuted.
Print Assumptions PropsMembers.C20_missing_setters_refuted.
Print Assumptions PropsMembers.C20_negative_overflow_refuted.
Print Assumptions PropsMembers.C20_stale_label_wins_refuted.
Print Assumptions PropsMembers.C20_nameless_labels_refuted.
Print Assumptions PropsMembers.C20_name_only_query_refuted.
Print Assumptions PropsMembers.C20_enum_members_missing_refuted.
Print Assumptions PropsMembers.C20_constants_refused.
(* C21 *)
Print Assumptions PropsInit.C21_products_match.
Print Assumptions PropsInit.C21_products_counted.
Print Assumptions PropsInit.C21_guesses_used.
Print Assumptions PropsInit.C21_terminates.
Print Assumptions PropsInit.C21_guesses_dropped_refuted.
Print Assumptions PropsInit.C21_basis_size.
(* C22 *)
Print Assumptions PropsInner.C22_phase.
Print Assumptions PropsInner.C22_history.
Print Assumptions PropsInner.C22_runs.
Print Assumptions PropsInner.C22_x_partial.
Print Assumptions PropsInner.C22_x_refuted.
Print Assumptions PropsInner.C22_Bx_refuted.
Print Assumptions PropsInner.C22_scalars_partial.
Print Assumptions PropsInner.C22_scalars_refuted.
(* C23 *)
Print Assumptions PropsOrder.C23_merge_complete_and_ordered.
Print Assumptions PropsOrder.C23_merge_with_nan_leaves_holes_refuted.
(* C24 *)
Print Assumptions PropsSelect.C24_selection.
Print Assumptions PropsSelect.C24_nothing_passed_over.
Print Assumptions PropsSelect.C24_limits.
Print Assumptions PropsSelect.C24_block_buffer_refuted.
Print Assumptions PropsSelect.C24_norm_floor_refuted.
Print Assumptions PropsSelect2.C24_shift_limit_when.
Print Assumptions PropsSelect2.C24_one_per_shift.
Print Assumptions PropsSelect2.C24_one_per_shift_refuted.
Print Assumptions PropsSelect2.C24_capacity.
(* C25 *)
Print Assumptions PropsDyn.C25_states.
Print Assumptions PropsDyn.C25_moves.
Print Assumptions PropsDyn.C25_evidence.
Print Assumptions PropsDyn.C25_gdk_only.
Print Assumptions PropsDyn.C25_average.
Print Assumptions PropsDyn.C25_recommendation.
Print Assumptions PropsDyn.C25_slowdown.
Print Assumptions PropsDyn.C25_exit_refuted.
Print Assumptions PropsDyn.C25_first_phase_refuted.
Print Assumptions PropsDyn.C25_processes_refuted.
Print Assumptions PropsDyn.C25_window_refuted.
Print Assumptions PropsDyn.C25_permanent.
Print Assumptions PropsDyn.C25_window_once.
(* C26 *)
Print Assumptions PropsReturn.C26_returned.
Print Assumptions PropsReturn.C26_guesses.
Print Assumptions PropsReturn.C26_soft_partial.
Print Assumptions PropsMain.C26_locking_refuted.
Print Assumptions PropsReturn.C26_conversion_refuted.
Print Assumptions PropsReturn.C26_room.
(* C27 *)
Print Assumptions PropsOrtho.C27_bounded.
Print Assumptions PropsOrtho.C27_code.
Print Assumptions PropsOrtho.C27_rank.
(* C28 *)
Print Assumptions PropsParallel.C28_uniform_outcome.
Print Assumptions PropsParallel.C28_detects_hash_differences.
Print Assumptions PropsParallel.C28_no_false_alarm.
Print Assumptions PropsParallel.C28_checksum_separates.
Print Assumptions PropsParallel.C28_collision_refuted.
Print Assumptions PropsParallel.C28_false_alarm_refuted.
(* C29 *)
Print Assumptions PropsLinalg.C29_update_projection_reduces.
(* C30 *)
Print Assumptions PropsCopy.C30_copy_overlapping.
Print Assumptions PropsCopy.C30_copy_disjoint.
Print Assumptions PropsCopy.C30_shift_one_column_refuted.
Print Assumptions PropsCopy.C30_shift_rows_refuted.
(* C31 *)
Print Assumptions PropsPresets.C31_every_member_set.
Print Assumptions PropsPresets.C31_documented_values.
Print Assumptions PropsPresets.C31_undecided_values.
Print Assumptions PropsPresets.C31_list_complete.
Print Assumptions PropsPresets.C31_documented_values_refuted.
Print Assumptions PropsPresets.C31_global_sum_refuted.
(* C32 *)
Print Assumptions PropsPresets.C32_preset_settings.
Print Assumptions PropsPresets.C32_preset_sizes.
Print Assumptions PropsPresets.C32_locking_refuted.
Print Assumptions PropsPresets.C32_jdqmr_etol_refuted.
Print Assumptions PropsPresets.C32_dynamic_refuted.
Print Assumptions PropsPresets.C32_zero_kept_refuted.
Print Assumptions PropsPresets.C32_mass_matrix_retain_refuted.
(* C33 *)
Print Assumptions PropsRestart.C33_map_is_permutation.
Print Assumptions PropsRestart.C33_map_rational.
Print Assumptions PropsRestart.C33_zero_vector_refuted.
(* C34 *)
Print Assumptions PropsOrtho.C34_orthonormal.
Print Assumptions PropsOrtho.C34_factors.
Print Assumptions PropsOrtho.C34_replaced.
Print Assumptions PropsOrtho.C34_real.
(* C35 *)
Print Assumptions PropsOrtho.C35_block_partial.
Print Assumptions PropsSvqb2.C54_recovered.
Print Assumptions PropsOrtho.C35_block_refuted.
(* C36 *)
Print Assumptions PropsLoop.C36_progress.
Print Assumptions PropsLoop.C36_bounded.
Print Assumptions PropsLoop.C36_terminates_partial.
Print Assumptions PropsLoop.C36_wholespace_refuted.
Print Assumptions PropsLoop.C36_failed_refuted.
(* C37 *)
Print Assumptions PropsReturn.C37_locking.
Print Assumptions PropsReturn.C37_count.
Print Assumptions PropsReturn.C37_permuted.
Print Assumptions PropsReturn.C37_quick_refuted.
Print Assumptions PropsReturn.C37_unset_refuted.
Print Assumptions PropsReturn.C37_leading_dimension_refuted.
(* C38 *)
Print Assumptions PropsSvds.C38_AtA_in.
Print Assumptions PropsSvds.C38_AtA.
Print Assumptions PropsSvds.C38_AAt_in.
Print Assumptions PropsSvds.C38_AAt_partial.
Print Assumptions PropsSvds.C38_augmented_in.
Print Assumptions PropsSvds.C38_augmented.
Print Assumptions PropsSvds.C38_hybrid.
Print Assumptions PropsSvds.C38_AAt_refuted.
Print Assumptions PropsSvds.C38_AAt_overrun_refuted.
(* C39 *)
Print Assumptions PropsSvdsCtl.C39_completed.
Print Assumptions PropsSvdsCtl.C39_checked.
Print Assumptions PropsSvdsCtl.C39_rejected.
Print Assumptions PropsSvdsCtl.C39_one_stage.
Print Assumptions PropsSvdsCtl.C39_two_stages.
Print Assumptions PropsSvdsCtl.C39_count.
Print Assumptions PropsSvdsCtl.C39_decode.
Print Assumptions PropsSvdsCtl.C39_defined.
Print Assumptions PropsSvdsCtl.C39_resNorms_refuted.
Print Assumptions PropsSvdsCtl.C39_values.
Print Assumptions PropsSvdsCtl.C39_norm_meaning.
(* C40 *)
Print Assumptions PropsSvdsOp.C40_AtA.
Print Assumptions PropsSvdsOp.C40_AAt.
Print Assumptions PropsSvdsOp.C40_augmented.
Print Assumptions PropsSvdsOp.C40_error.
Print Assumptions PropsSvdsOp.C40_no_block.
Print Assumptions PropsSvdsOp.C40_limit.
(* C41 *)
Print Assumptions PropsSvdsMon.C41_totals.
Print Assumptions PropsSvdsMon.C41_seen.
Print Assumptions PropsSvdsMon.C41_broadcasts.
Print Assumptions PropsSvdsMon.C41_single.
Print Assumptions PropsSvdsMon.C41_stage1_locked.
Print Assumptions PropsSvdsMon.C41_stage1_values.
Print Assumptions PropsSvdsMon.C41_stage1_block.
Print Assumptions PropsSvdsMon.C41_stage1_lock_event.
Print Assumptions PropsSvdsMon.C41_stage1_norms.
Print Assumptions PropsSvdsMon.C41_augmented_norm.
Print Assumptions PropsSvdsMon.C41_stage2.
Print Assumptions PropsSvdsMon.C41_broadcasts_refuted.
Print Assumptions PropsSvdsMon.C41_failed_report_refuted.
Print Assumptions PropsSvdsMon.C41_stage1_norms_refuted.
Print Assumptions PropsSvdsMon.C41_augmented_refuted.
Print Assumptions PropsSvdsMon.C41_stage2_refuted.
(* C42 *)
Print Assumptions PropsSvdsOp.C42_stage2.
Print Assumptions PropsSvdsOp.C42_stage1.
Print Assumptions PropsSvdsOp.C42_squares.
Print Assumptions PropsSvdsOp.C42_first_call.
Print Assumptions PropsSvdsOp.C42_released.
Print Assumptions PropsSvdsOp.C42_overflow_refuted.
Print Assumptions PropsSvdsOp.C42_later_call_refuted.
Print Assumptions PropsSvdsOp.C42_no_shifts.
Print Assumptions PropsSvdsOp.C42_kept.
(* C43 *)
Print Assumptions PropsSvdsConv.C43_AtA.
Print Assumptions PropsSvdsConv.C43_AAt.
Print Assumptions PropsSvdsConv.C43_augmented.
Print Assumptions PropsSvdsConv.C43_callback.
Print Assumptions PropsSvdsConv.C43_callback_augmented.
Print Assumptions PropsSvdsConv.C43_norm_positive.
Print Assumptions PropsSvdsConv.C43_machine_refuted.
Print Assumptions PropsSvdsConv.C43_restore_refuted.
Print Assumptions PropsSvdsConv.C43_absent.
Print Assumptions PropsSvdsConv.C43_absent_augmented.
(* C44 *)
Print Assumptions PropsUpdate.C44_update.
Print Assumptions PropsUpdate.C44_image.
Print Assumptions PropsUpdate.C44_norms.
(* C45 *)
Print Assumptions PropsShift.C45_extreme.
Print Assumptions PropsShift.C45_interior.
Print Assumptions PropsShift.C45_locked.
Print Assumptions PropsShift.C45_null_refuted.
Print Assumptions PropsShift.C45_single_refuted.
Print Assumptions PropsShift.C45_zero_refuted.
(* C46 *)
Print Assumptions PropsSvdsParams.C46_documented_values.
Print Assumptions PropsSvdsParams.C46_every_member_set.
Print Assumptions PropsSvdsParams.C46_documented_values_refuted.
Print Assumptions PropsSvdsParams.C46_locking_issue_refuted.
(* C47 *)
Print Assumptions PropsSvdsParams.C47_total.
Print Assumptions PropsSvdsParams.C47_methods.
Print Assumptions PropsSvdsParams.C47_default_method.
Print Assumptions PropsSvdsParams.C47_settings_kept.
Print Assumptions PropsSvdsParams.C47_problem.
Print Assumptions PropsSvdsParams.C47_choices.
Print Assumptions PropsSvdsParams.C47_callbacks.
Print Assumptions PropsSvdsParams.C47_local_rows.
Print Assumptions PropsSvdsParams.C47_idempotent.
Print Assumptions PropsSvdsParams.C47_precondition.
Print Assumptions PropsSvdsParams.C47_second_stage_guesses.
Print Assumptions PropsSvdsParams.C47_change_method_refuted.
Print Assumptions PropsSvdsParams.C47_late_preconditioner_refuted.
Print Assumptions PropsSvdsParams.C47_late_sizes_refuted.
Print Assumptions PropsSvdsParams.C47_unknown_preset_refuted.
Print Assumptions PropsSvdsParams.C47_block_size_refuted.
(* C48 *)
Print Assumptions PropsSvdsMembers.C48_labels_cover.
Print Assumptions PropsSvdsMembers.C48_get_reads_member.
Print Assumptions PropsSvdsMembers.C48_get_stages.
Print Assumptions PropsSvdsMembers.C48_set_writes_member.
Print Assumptions PropsSvdsMembers.C48_set_then_get.
Print Assumptions PropsSvdsMembers.C48_refused_set_changes_nothing.
Print Assumptions PropsSvdsMembers.C48_missing_setters_refuted.
Print Assumptions PropsSvdsMembers.C48_negative_overflow_refuted.
Print Assumptions PropsSvdsMembers.C48_names_one_to_one.
Print Assumptions PropsSvdsMembers.C48_info_by_label.
Print Assumptions PropsSvdsMembers.C48_info_by_name.
Print Assumptions PropsSvdsMembers.C48_info_unknown_refused.
Print Assumptions PropsSvdsMembers.C48_iseed_arity_refuted.
Print Assumptions PropsSvdsMembers.C48_stale_label_wins_refuted.
Print Assumptions PropsSvdsMembers.C48_name_only_query_refuted.
Print Assumptions PropsSvdsMembers.C48_constants_by_name.
Print Assumptions PropsSvdsMembers.C48_other_constants.
Print Assumptions PropsSvdsMembers.C48_enum_names.
Print Assumptions PropsSvdsMembers.C48_preset_names.
Print Assumptions PropsSvdsMembers.C48_enum_members_missing_refuted.
(* C49 *)
Print Assumptions PropsProj.C49_setup_fits.
Print Assumptions PropsProj.C49_left_operator.
Print Assumptions PropsProj.C49_left_orthogonal.
Print Assumptions PropsProj.C49_right_operator.
Print Assumptions PropsProj.C49_right_orthogonal.
Print Assumptions PropsProj.C49_update_factors.
Print Assumptions PropsProj.C49_one_constraint_kept.
Print Assumptions PropsProj.C49_first_pair_kept.
Print Assumptions PropsProj.C49_two_vectors_refuted.
Print Assumptions PropsProj.C49_restart_without_B_refuted.
Print Assumptions PropsProj.C49_constraint_and_pair_refuted.
Print Assumptions PropsProj.C49_B_without_locking_refuted.
Print Assumptions PropsProj.C49_olsen.
Print Assumptions PropsProj.C49_gd.
Print Assumptions PropsProj.C49_gd_error.
Print Assumptions PropsProj.C49_cheap_olsen_up_to_x.
Print Assumptions PropsProj.C49_skew_without_right_accepted_refuted.
Print Assumptions PropsProj.C49_olsen_error_lost_refuted.
(* C50 *)
Print Assumptions PropsExtract.C50_rayleigh_ritz.
Print Assumptions PropsExtract.C50_refined.
Print Assumptions PropsExtract2.C50_refined_minimal.
Print Assumptions PropsExtract.C50_harmonic.
Print Assumptions PropsExtract.C50_prepared_vectors.
Print Assumptions PropsExtract.C50_preparation_ends.
Print Assumptions PropsExtract.C50_update_Q.
Print Assumptions PropsExtract2.C50_harmonic_order.
Print Assumptions PropsExtract.C50_guesses.
(* C51 *)
Print Assumptions PropsReproj.C51_restart_RR.
Print Assumptions PropsReproj.C51_rebuilt_factorization.
Print Assumptions PropsReproj.C51_restart_harmonic.
Print Assumptions PropsReproj2.C51_restart_refined.
Print Assumptions PropsReproj3.C51_shift_change_found.
Print Assumptions PropsReproj3.C51_shift_change_found_refined.
Print Assumptions PropsReproj3.C51_shift_change_missed_refuted.
Print Assumptions PropsReproj4.C51_restart_refined_zero_refuted.
Print Assumptions PropsReproj4.C51_restart_refined_explicit_refuted.
(* C52 *)
Print Assumptions PropsStep2.C52_every_history.
Print Assumptions PropsStep2.C52_locked.
Print Assumptions PropsStep2.C52_candidates.
Print Assumptions PropsStep2.C52_locked_forever.
Print Assumptions PropsStep2.C52_returned_norms.
Print Assumptions PropsStep2.C52_returned_pairs.
Print Assumptions PropsStep3.C52_lock_permutations.
Print Assumptions PropsStep3.C52_soft_permutations.
Print Assumptions PropsStep4.C52_returned_pairs_limit_refuted.
Print Assumptions PropsStep4.C52_returned_pairs_shift_refuted.
Print Assumptions PropsStep4.C52_marked_beyond_refuted.
(* C53 *)
Print Assumptions PropsQmr.C53_ritz_value.
Print Assumptions PropsQmr.C53_linear_residual.
Print Assumptions PropsQmr.C53_eigen_residual.
Print Assumptions PropsQmr.C53_returned.
Print Assumptions PropsQmr2.C53_solver_ritz_value.
Print Assumptions PropsQmr2.C53_solver_linear_residual.
Print Assumptions PropsQmr2.C53_solver_eigen_residual.
Print Assumptions PropsQmr3.C53_linear_residual_bound.
Print Assumptions PropsQmr3.C53_solver_residual_bound.
Print Assumptions PropsQmr4.C53_tested_norm_refuted.
Print Assumptions PropsQmr4.C53_preset_value_refuted.
Print Assumptions PropsQmr.C53_mass_ritz_value.
Print Assumptions PropsQmr5.C53_mass_norm.
Print Assumptions PropsQmr5.C53_mass_norm_one.
Print Assumptions PropsQmr5.C53_mass_norm_refuted.
Print Assumptions PropsQmr5.C53_mass_value_refuted.
Print Assumptions PropsQmr5.C53_mass_residual_refuted.
(* C54 *)
Print Assumptions PropsSvqb2.C54_recovered.
Print Assumptions PropsSvqb2.C54_rank.
Print Assumptions PropsSvqb2.C54_inner_products.
Print Assumptions PropsSvqb2.C54_orthonormal.
Print Assumptions PropsSvqb2.C54_basis_orthonormal.
Print Assumptions PropsSvqb2.C54_history.
Print Assumptions PropsSvqb2.C54_single.
Print Assumptions PropsSvqb3.C54_overflow_refuted.
Print Assumptions PropsSvqb3.C54_single_refuted.
(* C55 *)
Print Assumptions PropsBlas2.C55_vectors.
Print Assumptions PropsBlas2.C55_gemv.
Print Assumptions PropsBlas2.C55_gemm.
Print Assumptions PropsBlas2.C55_gemm_dhd.
Print Assumptions PropsBlas2.C55_gemm_ddh.
Print Assumptions PropsBlas2.C55_gramm.
Print Assumptions PropsBlas2.C55_submatrix.
Print Assumptions PropsBlas2.C55_gemv_ddh.
Print Assumptions PropsBlas2.C55_gemv_dhd.
Print Assumptions PropsBlas3.C55_projector.
Print Assumptions PropsBlas3.C55_ortho_pass.
Print Assumptions PropsBlas4.C55_too_large.
Print Assumptions PropsBlas4.C55_one_row_refuted.
Print Assumptions PropsBlas4.C55_empty_process_refuted.
Print Assumptions PropsBlas4.C55_leading_refuted.
Print Assumptions PropsBlas4.C55_long_refuted.
(* C56 *)
Print Assumptions PropsVwxr2.C56_update.
Print Assumptions PropsVwxr3.C56_kernel.
Print Assumptions PropsVwxr2.C56_callers.
Print Assumptions PropsVwxr3.C56_restart.
Print Assumptions PropsVwxr3.C56_last_row_refuted.
Print Assumptions PropsVwxr3.C56_distribution.
(* C57 *)
Print Assumptions PropsMove2.C57_block.
Print Assumptions PropsMove4.C57_locking.
Print Assumptions PropsMove5.C57_restart.
Print Assumptions PropsMove6.C57_device_gramm.
Print Assumptions PropsMove6.C57_upper_only_refuted.
Print Assumptions PropsMove6.C57_block_size.
(* C58 *)
Print Assumptions PropsBrcast.C58_projected.
Print Assumptions PropsBrcast.C58_previous.
Print Assumptions PropsBrcast.C58_extremes.
Print Assumptions PropsBrcast.C58_failure_refuted.
(* C59 *)
Print Assumptions PropsTest.C59_calls.
Print Assumptions PropsTest.C59_restart.
Print Assumptions PropsTest.C59_candidates.
Print Assumptions PropsTest.C59_no_vector.
Print Assumptions PropsTest.C59_verify.
Print Assumptions PropsTest2.C59_type.
Print Assumptions PropsTest2.C59_practical_refuted.
Print Assumptions PropsTest2.C59_type_refuted.
(* C60 *)
Print Assumptions PropsCoherence.C60_all_return.
Print Assumptions PropsCoherence.C60_agree.
Print Assumptions PropsCoherence.C60_difference_rejected.
Print Assumptions PropsCoherence.C60_accepted.
Print Assumptions PropsCoherence.C60_alone_refuted.
Print Assumptions PropsCoherence.C60_unchecked_refuted.
(* C61 *)
Print Assumptions PropsMonitor.C61_outer_arguments.
Print Assumptions PropsMonitor.C61_inner_arguments.
Print Assumptions PropsMonitor.C61_converged.
Print Assumptions PropsMonitor2.C61_locked.
Print Assumptions PropsMonitor2.C61_locked_LSRes_refuted.
Print Assumptions PropsMonitor3.C61_outer_each.
Print Assumptions PropsMonitor3.C61_outer.
Print Assumptions PropsMonitor3.C61_late.
Print Assumptions PropsMonitor3.C61_outer_numbers.
Print Assumptions PropsMonitor4.C61_inner_each.
Print Assumptions PropsMonitor4.C61_inner_exact.
(* C62 *)
Print Assumptions PropsLapack.C62_heev.
Print Assumptions PropsLapack.C62_heev_reported.
Print Assumptions PropsLapack.C62_hegv.
Print Assumptions PropsLapack.C62_hegv_standard.
Print Assumptions PropsLapack.C62_gesvd.
Print Assumptions PropsLapack.C62_solve.
Print Assumptions PropsLapack.C62_solve_once.
Print Assumptions PropsLapack.C62_solve_lu.
Print Assumptions PropsLapack.C62_potrf_reported.
Print Assumptions PropsLapack.C62_empty.
Print Assumptions PropsLapack.C62_trsm.
Print Assumptions PropsLapack2.C62_laws_hold.
Print Assumptions PropsLapack.C62_hegv_unreported_refuted.
Print Assumptions PropsLapack2.C62_solve_again_refuted.
Print Assumptions PropsLapack.C62_trsm_rows_refuted.
(* C63 *)
Print Assumptions PropsPy.C63_accepted.
Print Assumptions PropsPy.C63_problem.
Print Assumptions PropsPy.C63_wanted.
Print Assumptions PropsPy.C63_arrays.
Print Assumptions PropsPy.C63_options.
Print Assumptions PropsPy.C63_sizes.
Print Assumptions PropsPy.C63_returned.
Print Assumptions PropsPy.C63_raised.
Print Assumptions PropsPy3.C63_matvec.
Print Assumptions PropsPy.C63_unraised_refuted.
Print Assumptions PropsPy2.C63_refusal_returned_refuted.
Print Assumptions PropsPy2.C63_arrays_too_small_refuted.
Print Assumptions PropsPy2.C63_preset_replaces_refuted.
Print Assumptions PropsPy.C63_type.
Print Assumptions PropsPy.C63_objects.
(* C64 *)
Print Assumptions PropsPy3.C64_guesses.
Print Assumptions PropsPy3.C64_constraints_partial.
Print Assumptions PropsPy3.C64_returned.
Print Assumptions PropsPy3.C64_raised.
Print Assumptions PropsPy3.C64_precond_partial.
Print Assumptions PropsPy3.C63_matvec.
Print Assumptions PropsPy3.C64_constraints_alone_refuted.
Print Assumptions PropsPy3.C64_constraints_repeated_refuted.
Print Assumptions PropsPy3.C64_one_side_refuted.
Print Assumptions PropsPy3.C64_unconverged_unraised_refuted.
Print Assumptions PropsPy3.C64_maxiter_refuted.
Print Assumptions PropsPy3.C64_precond_order_refuted.
(* C65 *)
Print Assumptions PropsFortran.C65_members.
Print Assumptions PropsFortran.C65_svds_members.
Print Assumptions PropsFortran.C65_constants.
Print Assumptions PropsFortran.C65_svds_constants.
Print Assumptions PropsFortran.C65_no_conflict.
Print Assumptions PropsFortran.C65_set_then_get.
Print Assumptions PropsFortran.C65_svds_set_then_get.
Print Assumptions PropsFortran.C65_shift.
Print Assumptions PropsFortran.C65_undeclared_refuted.
Print Assumptions PropsFortran.C65_no_memory_refuted.
Print Assumptions PropsFortran.C65_shifts_member.
(* C66 *)
Print Assumptions PropsR.C66_A.
Print Assumptions PropsR.C66_function.
Print Assumptions PropsR.C66_B_partial.
Print Assumptions PropsR.C66_B_bounds_refuted.
Print Assumptions PropsR.C66_B_wrong_refuted.
Print Assumptions PropsR.C66_arrays.
Print Assumptions PropsR.C66_target.
Print Assumptions PropsR.C66_bad_target.
Print Assumptions PropsR.C66_shifts.
Print Assumptions PropsR.C66_LM_refuted.
Print Assumptions PropsR.C66_returned.
Print Assumptions PropsR.C66_raised_partial.
Print Assumptions PropsR.C66_message_refuted.
Print Assumptions PropsR.C66_prec.
Print Assumptions PropsR.C66_prec_matrix_refuted.
Print Assumptions PropsR.C66_test_partial.
Print Assumptions PropsR.C66_test_refuted.
Print Assumptions PropsR.C66_function_default.
Print Assumptions PropsR.C66_shape.
(* C67 *)
Print Assumptions PropsR2.C67_products.
Print Assumptions PropsR2.C67_function.
Print Assumptions PropsR2.C67_arrays.
Print Assumptions PropsR2.C67_right_only.
Print Assumptions PropsR2.C67_left_only_partial.
Print Assumptions PropsR2.C67_left_only_refuted.
Print Assumptions PropsR2.C67_returned.
Print Assumptions PropsR2.C67_raised.
Print Assumptions PropsR2.C67_prec.
Print Assumptions PropsR2.C67_function_one_sided.
(* C68 *)
Print Assumptions PropsMat.C68_products.
Print Assumptions PropsMat.C68_rectangular.
Print Assumptions PropsMat.C68_function_partial.
Print Assumptions PropsMat.C68_sparse_refuted.
Print Assumptions PropsMat.C68_arguments.
Print Assumptions PropsMat.C68_shifts.
Print Assumptions PropsMat.C68_shifts_set.
Print Assumptions PropsMat.C68_no_shifts_refuted.
Print Assumptions PropsMat.C68_prec.
Print Assumptions PropsMat.C68_no_prec_refuted.
Print Assumptions PropsMat2.C68_guesses.
Print Assumptions PropsMat2.C68_int_options_partial.
Print Assumptions PropsMat2.C68_true_refuted.
Print Assumptions PropsMat2.C68_infinite_refuted.
Print Assumptions PropsMat2.C68_test_partial.
Print Assumptions PropsMat2.C68_test_fraction_refuted.
Print Assumptions PropsMat2.C68_test_single_refuted.
Print Assumptions PropsMat2.C68_returned.
Print Assumptions PropsMat2.C68_raised.
Print Assumptions PropsMat2.C68_norms_partial.
Print Assumptions PropsMat2.C68_columns_partial.
Print Assumptions PropsMat2.C68_norms_refuted.
Print Assumptions PropsMat2.C68_columns_refuted.
Print Assumptions PropsMat.C68_prec_function.
Print Assumptions PropsMat.C68_unknown_target.
Print Assumptions PropsMat2.C68_counted.
(* C69 *)
Print Assumptions PropsMatSvds.C69_products.
Print Assumptions PropsMatSvds.C69_function_partial.
Print Assumptions PropsMatSvds.C69_targets.
Print Assumptions PropsMatSvds.C69_prec_matrix_partial.
Print Assumptions PropsMatSvds.C69_prec_function_partial.
Print Assumptions PropsMatSvds.C69_prec_factors_partial.
Print Assumptions PropsMatSvds.C69_prec_R_partial.
Print Assumptions PropsMatSvds.C69_prec_struct.
Print Assumptions PropsMatSvds.C69_prec_none.
Print Assumptions PropsMatSvds.C69_trial.
Print Assumptions PropsMatSvds.C69_rectangular_refuted.
Print Assumptions PropsMatSvds2.C69_constraints.
Print Assumptions PropsMatSvds2.C69_guesses_partial.
Print Assumptions PropsMatSvds2.C69_guesses_paired.
Print Assumptions PropsMatSvds2.C69_guesses_both_refuted.
Print Assumptions PropsMatSvds2.C69_guesses_left_refuted.
Print Assumptions PropsMatSvds2.C69_arrays.
Print Assumptions PropsMatSvds2.C69_vectors.
Print Assumptions PropsMatSvds2.C69_returned.
Print Assumptions PropsMatSvds2.C69_raised.
Print Assumptions PropsMatSvds2.C69_norms_partial.
Print Assumptions PropsMatSvds2.C69_norms_refuted.
(* C70 *)
Print Assumptions PropsErrors.C70_python_partial.
Print Assumptions PropsErrors.C70_stages.
Print Assumptions PropsErrors.C70_same_text.
Print Assumptions PropsErrors.C70_r_partial.
Print Assumptions PropsErrors.C70_matlab_partial.
Print Assumptions PropsErrors.C70_matlab_stages.
Print Assumptions PropsErrors.C70_named.
Print Assumptions PropsErrors.C70_all_named.
Print Assumptions PropsErrors.C70_distinct.
Print Assumptions PropsErrors.C70_projection_refuted.
Print Assumptions PropsErrors.C70_matlab_procs_refuted.
(* C71 *)
Print Assumptions PropsMatOptions.C71_eigs.
Print Assumptions PropsMatOptions.C71_eigs_accepted.
Print Assumptions PropsMatOptions.C71_eigs_once.
Print Assumptions PropsMatOptions.C71_eigs_documented_partial.
Print Assumptions PropsMatOptions.C71_profiler_refuted.
Print Assumptions PropsMatOptions.C71_scheme_refuted.
Print Assumptions PropsMatOptions.C71_svds.
Print Assumptions PropsMatOptions.C71_svds_accepted.
Print Assumptions PropsMatOptions.C71_svds_documented_partial.
Print Assumptions PropsMatOptions.C71_svds_profiler_refuted.
Print Assumptions PropsMatOptions.C71_stage_refuted.
