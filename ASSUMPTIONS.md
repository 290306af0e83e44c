# What `Print Assumptions` lists

287 theorems; 4 axioms in all, each from Coq's standard library (`Coq.Reals`, `Coq.Logic`).  (Generated by `tools/gen_assumptions.py`.)

## Closed under the global context (40 theorems)

`C17_accepts`, `C17_binary_files_unpacked_without_loss`, `C17_default_layout`, `C17_layout`, `C19_name_check_exact`, `C19_other_ranks_accept_anything`, `C19_sizing_name_check_exact`, `C36_slots_in_general`, `C36_table_right`, `C36_unused_vertex_shifts`, `C37_edges_complete`, `C37_unique_edges`, `C38_boundary_edges`, `C38_no_loose_ends`, `C39_hole_is_missing_refuted`, `C39_one_whole_loop`, `C39_terminates_with_a_trail`, `C39_trail_is_closed`, `C40_boundary_entities`, `C40_boundary_facets`, `C40_boundary_vertices`, `C41_manifold_test`, `C41_multiple_edges_unnoticed_refuted`, `C41_no_boundary_raises`, `C45_all_permutations`, `C56_never_blocks_and_delivers`, `C57_completes_iff`, `C57_hangs`, `C57_mixes_iterations`, `C58_aggregate`, `C74_stale_out_of_range`, `C75_integer_boxes_rejected`, `C77_duplicates_lose_vertices`, `C77_idle_rank_loses_vertex`, `C77_own_vertices_kept`, `C77_zero_count_loses_all`, `C82_edges_2d`, `C82_edges_3d`, `C88_buffering_matters`, `C88_ends_unbuffered_ends_always`

## Group 1 (4 theorems)

Axioms: `ClassicalDedekindReals.sig_forall_dec`

`C14_padded_box`, `C87_extension_decides`, `C87_raw_layout`, `C87_segy_layout`

## Group 2 (3 theorems)

Axioms: `FunctionalExtensionality.functional_extensionality_dep`

`C88_ends_once_ends_always_if_buffered`, `C88_hangs_once_hangs_always`, `C88_same_result_in_all_runs`

## Group 3 (104 theorems)

Axioms: `ClassicalDedekindReals.sig_forall_dec`, `FunctionalExtensionality.functional_extensionality_dep`

`C09_courant_parameters`, `C09_courant_step`, `C09_courant_succeeds`, `C12_water_only_in_row0_is_kept`, `C12_water_replaced`, `C13_km_s_array_is_scaled`, `C14_padding`, `C14_rejections`, `C15_padding_moves_the_data`, `C15_unpadded_first_row`, `C18_constant_model_has_no_size`, `C18_gradient_size_band`, `C19_unknown_mesh_option_rejected`, `C21_python_cpp_agree`, `C23_difference`, `C23_intersection`, `C23_union`, `C23_value_of_set`, `C24_far_operands_exact`, `C24_smooth_difference_two`, `C24_smooth_intersection`, `C24_smooth_union`, `C25_nested_difference`, `C25_three_operands_refuted`, `C26_boxes`, `C29_corners`, `C30_folded_coordinate`, `C30_periodic`, `C30_repeat`, `C31_guard_never_rejects`, `C31_mixed_list_accepted`, `C31_three_d_first_index_error`, `C33_fix_mesh_clean`, `C33_fix_mesh_total`, `C34_orientation`, `C34_volumes_preserved`, `C35_map_without_delete`, `C35_no_map_refuted`, `C35_with_delete`, `C44_affine`, `C44_scaling`, `C44_split`, `C44_swap`, `C44_translation`, `C45_3x3`, `C45_4x4`, `C45_volume`, `C46_volume_grad`, `C47_one_sphere`, `C48_corner_differs`, `C48_tetrahedron`, `C48_triangle`, `C49_exactly`, `C49_misses_overlap`, `C49_multiplicity`, `C49_no_false_alarm`, `C54_interior_fixed_point_moves_refuted`, `C54_solution_averages`, `C58_cells_of_all_ranks`, `C59_delivered`, `C59_table`, `C60_view_exceeds_buffer`, `C60_write_beyond_buffer`, `C61_complete`, `C61_missed`, `C61_sent_to_one_only`, `C61_sound`, `C62_blocks`, `C62_cover`, `C63_duplicates`, `C63_too_many_blocks`, `C64_point_outside_local_sizing_grid`, `C65_covers_box`, `C65_extent`, `C65_no_point_twice`, `C65_starts_at_corner`, `C66_first_gap_is_h0`, `C66_later_gaps`, `C66_narrow_blocks_empty`, `C66_one_rank_is_serial`, `C66_ranks_disjoint`, `C67_local_sizing_covers`, `C71_improve_fails`, `C71_levels_untouched`, `C71_small_gradient_residual`, `C71_who_moves`, `C74_numbering`, `C74_stale_clash`, `C75_accepted_calls`, `C75_merged_box_is_smallest`, `C75_mixed_dimensions_truncate`, `C75_verbosity`, `C75_zero_accepted`, `C79_distribution`, `C79_every_point_owned`, `C79_hangs`, `C80_axis2`, `C81_exchange_loses_a_vertex`, `C81_move`, `C81_remove`, `C87_file_written`, `C87_km_s_refuted`, `C87_padding_arguments`, `C87_units_ignored`

## Group 4 (49 theorems)

Axioms: `ClassicalDedekindReals.sig_forall_dec`, `ClassicalDedekindReals.sig_not_dec`, `FunctionalExtensionality.functional_extensionality_dep`

`C20_ball_signed_distance`, `C20_disk_signed_distance`, `C21_cube_classification`, `C21_rectangle_classification`, `C22_cylinder`, `C22_prism`, `C22_torus`, `C25_disks_refuted`, `C26_smooth_union_refuted`, `C27_every_point_is_an_image`, `C27_transformed_2d`, `C27_transformed_3d`, `C28_box_2d`, `C28_box_3d_one_axis`, `C28_two_axes_refuted`, `C29_corners_ignore_translation`, `C29_corners_without_translation`, `C29_stale_corners_kept`, `C32_array_overwritten`, `C32_second_construction_unstretched`, `C32_two_disks_differ`, `C42_deletes_exactly_poor_boundary`, `C42_poor_boundary_remains_refuted`, `C43_corner_order`, `C43_range`, `C43_similarity`, `C50_min_edge`, `C50_tetrahedra`, `C50_triangles`, `C52_succeeds`, `C52_unused_vertex_nothing_moves`, `C65_spacing`, `C66_closer_than_h0`, `C66_spacing_within_a_rank`, `C70_always_compressed`, `C70_push_sign`, `C71_affine_lands`, `C71_improve`, `C71_step_bound`, `C73_default_bounds`, `C76_flat_tetrahedron_scores_1`, `C76_quality_ignores_last_corner`, `C85_constant_size`, `C85_initial_points`, `C85_r0m_is_h0_keeps_fewer`, `C85_rejection`, `C85_user_points`, `C86_last_stage_ignores_fixed`, `C86_on_the_boundary_kept_3d`

## Group 5 (2 theorems)

Axioms: `ClassicalDedekindReals.sig_forall_dec`, `Classical_Prop.classic`, `FunctionalExtensionality.functional_extensionality_dep`

`C54_maximum_principle`, `C54_unique_solution`

## Group 6 (85 theorems)

Axioms: `ClassicalDedekindReals.sig_forall_dec`, `ClassicalDedekindReals.sig_not_dec`, `Classical_Prop.classic`, `FunctionalExtensionality.functional_extensionality_dep`

`C01_limgrad_only_refines`, `C01_limgrad_only_refines_binary64`, `C02_converged_is_graded`, `C02_converged_is_graded_rounded`, `C03_converged_upper_envelope`, `C03_no_over_refinement`, `C03_no_over_refinement_rounded`, `C04_cap_not_enough_refuted`, `C04_limgrad_converges`, `C05_graded_input_unchanged`, `C05_graded_input_unchanged_exact`, `C05_limgrad_idempotent`, `C06_ind2sub_sub2ind`, `C06_plane_index_exact`, `C06_stencil_in_bounds`, `C06_sub2ind_ind2sub`, `C07_sizes_between_hmin_and_hmax`, `C08_hmax_exceeded_with_dt`, `C08_never_below_hmin`, `C10_courant_holds_without_grading`, `C10_grading_breaks_courant`, `C11_cells_per_wavelength`, `C13_not_repeatable_in_km`, `C13_repeatable_in_metres`, `C16_graded_in_grid_steps`, `C16_x_gradient_exceeds_grade`, `C21_binary64_sign`, `C47_circumsphere_grad`, `C51_keeps_touching_entities`, `C52_keeps_fixed_vertices_and_hull`, `C52_result_of_averaging_steps`, `C53_stops_although_vertices_move_refuted`, `C53_stops_when_edges_shrink`, `C55_collinear_never_listed`, `C55_computed_angle`, `C55_flat_listed`, `C55_slivers_exactly`, `C68_budget`, `C68_negative_refused`, `C68_otherwise_no_mesh`, `C68_runs_forever`, `C69_cells_inside`, `C69_unused_vertices`, `C70_force_law`, `C70_force_step`, `C70_forces_cancel`, `C70_isolated`, `C70_no_drift`, `C72_enclosing_box`, `C72_other_dimensions`, `C72_own_domain`, `C72_shape_ignored`, `C73_budget`, `C73_cap_keeps_slivers`, `C73_last_triangulation`, `C73_no_slivers`, `C73_other_ranks`, `C73_plane_refused`, `C73_runs_forever`, `C78_rounding_drops_points`, `C83_between_hmin_and_hmax`, `C83_in_the_box`, `C83_never_below_hmin`, `C83_outside_refuted`, `C83_size_function`, `C84_graded`, `C84_graded_along_depth`, `C84_other_axes_refuted`, `C85_no_grid_point`, `C86_fixed_points_stay`, `C86_generate_mesh`, `C86_last_triangulation`, `C86_lost_at_the_end_refuted`, `C86_nearest_vertex_stays`, `C86_one_iteration`, `C86_outside_refuted`, `C87_fits_the_size_function`, `C89_cells_inside`, `C89_fixed_points_ignored`, `C89_run`, `C90_first_iteration_exchanges_nothing`, `C90_one_iteration_leaves_gaps`, `C91_empty_slab_hangs`, `C91_thinned_out_hangs`, `C91_too_few_blocks_hangs`
