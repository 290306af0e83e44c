{
 "claims": [
  {
   "property": "C01",
   "status": "proved",
   "theorems": [
    "C01_limgrad_only_refines",
    "C01_limgrad_only_refines_binary64"
   ],
   "note": "for every monotone rounding, and instantiated for binary64"
  },
  {
   "property": "C02",
   "status": "proved",
   "theorems": [
    "C02_converged_is_graded_rounded",
    "C02_converged_is_graded"
   ],
   "note": "rounded form and exact form; premise met by C02_converged_runs_exist"
  },
  {
   "property": "C03",
   "status": "proved",
   "theorems": [
    "C03_no_over_refinement_rounded",
    "C03_no_over_refinement",
    "C03_converged_upper_envelope"
   ],
   "note": "lower envelope at any stop, upper envelope at convergence"
  },
  {
   "property": "C04",
   "status": "proved",
   "theorems": [
    "C04_limgrad_converges",
    "C04_cap_not_enough_refuted",
    "C04_binary64_converges",
    "C04_binary64_usual_sizes",
    "C04_binary64_cap_refuted"
   ],
   "note": "convergence bound in exact arithmetic; cap refuted for every imax up to int range (10000 included)"
  },
  {
   "property": "C05",
   "status": "proved",
   "theorems": [
    "C05_graded_input_unchanged",
    "C05_graded_input_unchanged_exact",
    "C05_limgrad_idempotent"
   ],
   "note": ""
  },
  {
   "property": "C06",
   "status": "proved",
   "theorems": [
    "C06_sub2ind_ind2sub",
    "C06_ind2sub_sub2ind",
    "C06_plane_index_exact",
    "C06_stencil_in_bounds"
   ],
   "note": "int arithmetic without overflow, grid size <= 2^31; double division proved exact with Flocq"
  },
  {
   "property": "C07",
   "status": "proved",
   "theorems": [
    "C07_sizes_between_hmin_and_hmax"
   ],
   "note": ""
  },
  {
   "property": "C08",
   "status": "proved",
   "theorems": [
    "C08_never_below_hmin",
    "C08_hmax_exceeded_with_dt"
   ],
   "note": "lower bound for all inputs, witness for the excess"
  },
  {
   "property": "C09",
   "status": "proved",
   "theorems": [
    "C09_courant_step",
    "C09_courant_succeeds",
    "C09_courant_parameters"
   ],
   "note": ""
  },
  {
   "property": "C10",
   "status": "proved",
   "theorems": [
    "C10_courant_holds_without_grading",
    "C10_grading_breaks_courant"
   ],
   "note": "positive half for all inputs; refutation by a witness valid for every filter"
  },
  {
   "property": "C11",
   "status": "proved",
   "theorems": [
    "C11_cells_per_wavelength"
   ],
   "note": ""
  },
  {
   "property": "C12",
   "status": "proved",
   "theorems": [
    "C12_water_replaced",
    "C12_water_only_in_row0_is_kept"
   ],
   "note": ""
  },
  {
   "property": "C13",
   "status": "proved",
   "theorems": [
    "C13_repeatable_in_metres",
    "C13_km_s_array_is_scaled",
    "C13_not_repeatable_in_km"
   ],
   "note": ""
  },
  {
   "property": "C14",
   "status": "proved",
   "theorems": [
    "C14_padding",
    "C14_padded_box",
    "C14_rejections"
   ],
   "note": ""
  },
  {
   "property": "C15",
   "status": "proved",
   "theorems": [
    "C15_padding_moves_the_data",
    "C15_padded_rows",
    "C15_unpadded_first_row"
   ],
   "note": "exact arithmetic; float32 rounding of coordinates not modelled"
  },
  {
   "property": "C16",
   "status": "proved",
   "theorems": [
    "C16_graded_in_grid_steps",
    "C16_x_gradient_exceeds_grade"
   ],
   "note": ""
  },
  {
   "property": "C17",
   "status": "proved",
   "theorems": [
    "C17_binary_files_unpacked_without_loss",
    "C17_layout",
    "C17_default_layout",
    "C17_accepts"
   ],
   "note": "file = list of decoded samples"
  },
  {
   "property": "C18",
   "status": "proved",
   "theorems": [
    "C18_gradient_size_band",
    "C18_constant_model_has_no_size"
   ],
   "note": "uniform_filter is an oracle"
  },
  {
   "property": "C19",
   "status": "proved",
   "theorems": [
    "C19_unknown_mesh_option_rejected",
    "C19_name_check_exact",
    "C19_sizing_name_check_exact",
    "C19_other_ranks_accept_anything"
   ],
   "note": ""
  },
  {
   "property": "C20",
   "status": "proved",
   "theorems": [
    "C20_disk_signed_distance",
    "C20_ball_signed_distance"
   ],
   "note": "exact real arithmetic"
  },
  {
   "property": "C21",
   "status": "proved",
   "theorems": [
    "C21_rectangle_classification",
    "C21_cube_classification",
    "C21_binary64_sign",
    "C21_python_cpp_agree"
   ],
   "note": "exact arithmetic and binary64 without overflow"
  },
  {
   "property": "C22",
   "status": "proved",
   "theorems": [
    "C22_torus",
    "C22_cylinder",
    "C22_prism"
   ],
   "note": "exact arithmetic, literal 0.866025 kept"
  },
  {
   "property": "C23",
   "status": "proved",
   "theorems": [
    "C23_union",
    "C23_intersection",
    "C23_difference",
    "C23_value_of_set"
   ],
   "note": ""
  },
  {
   "property": "C24",
   "status": "proved",
   "theorems": [
    "C24_smooth_union",
    "C24_smooth_intersection",
    "C24_smooth_difference_two",
    "C24_far_operands_exact"
   ],
   "note": ""
  },
  {
   "property": "C25",
   "status": "proved",
   "theorems": [
    "C25_three_operands_refuted",
    "C25_nested_difference",
    "C25_disks_refuted"
   ],
   "note": "refutation for every k and on concrete disks"
  },
  {
   "property": "C26",
   "status": "proved",
   "theorems": [
    "C26_boxes",
    "C26_smooth_union_refuted"
   ],
   "note": ""
  },
  {
   "property": "C27",
   "status": "proved",
   "theorems": [
    "C27_transformed_2d",
    "C27_transformed_3d",
    "C27_every_point_is_an_image"
   ],
   "note": "2D: rotate=[a,0,0]"
  },
  {
   "property": "C28",
   "status": "proved",
   "theorems": [
    "C28_box_2d",
    "C28_box_3d_one_axis",
    "C28_two_axes_refuted"
   ],
   "note": "positive half for all seven primitives, refutation by the tilted cube"
  },
  {
   "property": "C29",
   "status": "proved",
   "theorems": [
    "C29_corners",
    "C29_corners_without_translation",
    "C29_corners_ignore_translation",
    "C29_stale_corners_kept"
   ],
   "note": ""
  },
  {
   "property": "C30",
   "status": "proved",
   "theorems": [
    "C30_folded_coordinate",
    "C30_repeat",
    "C30_box",
    "C30_periodic"
   ],
   "note": "np.mod as x - p*floor(x/p) in exact arithmetic"
  },
  {
   "property": "C31",
   "status": "proved",
   "theorems": [
    "C31_guard_never_rejects",
    "C31_mixed_list_accepted",
    "C31_three_d_first_index_error"
   ],
   "note": ""
  },
  {
   "property": "C32",
   "status": "proved",
   "theorems": [
    "C32_array_overwritten",
    "C32_second_construction_unstretched",
    "C32_two_disks_differ"
   ],
   "note": ""
  },
  {
   "property": "C33",
   "status": "proved",
   "theorems": [
    "C33_fix_mesh_clean",
    "C33_fix_mesh_total"
   ],
   "note": "np.unique in any order; snapping abstracted to a key function"
  },
  {
   "property": "C34",
   "status": "proved",
   "theorems": [
    "C34_orientation",
    "C34_volumes_preserved"
   ],
   "note": "exact arithmetic"
  },
  {
   "property": "C35",
   "status": "proved",
   "theorems": [
    "C35_map_without_delete",
    "C35_with_delete",
    "C35_no_map_refuted"
   ],
   "note": ""
  },
  {
   "property": "C36",
   "status": "proved",
   "theorems": [
    "C36_table_right",
    "C36_slots_in_general",
    "C36_unused_vertex_shifts"
   ],
   "note": "any tie order of argsort"
  },
  {
   "property": "C37",
   "status": "proved",
   "theorems": [
    "C37_edges_complete",
    "C37_unique_edges"
   ],
   "note": ""
  },
  {
   "property": "C38",
   "status": "proved",
   "theorems": [
    "C38_boundary_edges",
    "C38_no_loose_ends"
   ],
   "note": "non-degenerate triangles"
  },
  {
   "property": "C39",
   "status": "proved",
   "theorems": [
    "C39_terminates_with_a_trail",
    "C39_trail_is_closed",
    "C39_one_whole_loop",
    "C39_hole_is_missing_refuted"
   ],
   "note": ""
  },
  {
   "property": "C40",
   "status": "proved",
   "theorems": [
    "C40_boundary_facets",
    "C40_boundary_vertices",
    "C40_boundary_entities"
   ],
   "note": ""
  },
  {
   "property": "C41",
   "status": "proved",
   "theorems": [
    "C41_manifold_test",
    "C41_no_boundary_raises",
    "C41_multiple_edges_unnoticed_refuted"
   ],
   "note": ""
  },
  {
   "property": "C42",
   "status": "proved",
   "theorems": [
    "C42_deletes_exactly_poor_boundary",
    "C42_succeeds",
    "C42_poor_boundary_remains_refuted"
   ],
   "note": "exact arithmetic for the quality"
  },
  {
   "property": "C43",
   "status": "proved",
   "theorems": [
    "C43_range",
    "C43_similarity",
    "C43_corner_order"
   ],
   "note": "exact arithmetic"
  },
  {
   "property": "C44",
   "status": "proved",
   "theorems": [
    "C44_swap",
    "C44_translation",
    "C44_scaling",
    "C44_split",
    "C44_affine"
   ],
   "note": "exact arithmetic, 2D and 3D"
  },
  {
   "property": "C45",
   "status": "proved",
   "theorems": [
    "C45_3x3",
    "C45_4x4",
    "C45_all_permutations",
    "C45_volume"
   ],
   "note": "exact arithmetic"
  },
  {
   "property": "C46",
   "status": "proved",
   "theorems": [
    "C46_volume_grad"
   ],
   "note": "exact arithmetic"
  },
  {
   "property": "C47",
   "status": "proved",
   "theorems": [
    "C47_circumsphere_grad",
    "C47_one_sphere"
   ],
   "note": "every directional derivative; exact arithmetic"
  },
  {
   "property": "C48",
   "status": "proved",
   "theorems": [
    "C48_triangle",
    "C48_tetrahedron",
    "C48_corner_differs"
   ],
   "note": "exact arithmetic"
  },
  {
   "property": "C49",
   "status": "proved",
   "theorems": [
    "C49_exactly",
    "C49_multiplicity",
    "C49_no_false_alarm",
    "C49_misses_overlap"
   ],
   "note": "any tie order of argsort; exact arithmetic"
  },
  {
   "property": "C50",
   "status": "proved",
   "theorems": [
    "C50_tetrahedra",
    "C50_triangles",
    "C50_min_edge",
    "C50_ratio_lower_bound",
    "C50_slivers_unnoticed_refuted"
   ],
   "note": "CGAL's squared_radius is an oracle"
  },
  {
   "property": "C51",
   "status": "proved",
   "theorems": [
    "C51_keeps_touching_entities"
   ],
   "note": "binary64 sign"
  },
  {
   "property": "C52",
   "status": "proved",
   "theorems": [
    "C52_result_of_averaging_steps",
    "C52_keeps_fixed_vertices_and_hull",
    "C52_unused_vertex_nothing_moves",
    "C52_succeeds"
   ],
   "note": "exact arithmetic; steps defined in Spec/Smooth.v; also proves when it raises (no boundary, pfix=[])"
  },
  {
   "property": "C53",
   "status": "proved",
   "theorems": [
    "C53_stops_when_edges_shrink",
    "C53_stops_although_vertices_move_refuted"
   ],
   "note": "general stopping theorem and a mesh on which, for every tol>0 and max_iter>=1, it stops while the next sweep moves a vertex by more than 300"
  },
  {
   "property": "C54",
   "status": "proved",
   "theorems": [
    "C54_solution_averages",
    "C54_maximum_principle",
    "C54_unique_solution",
    "C54_solution_exists",
    "C54_unused_vertex_undetermined",
    "C54_interior_fixed_point_moves_refuted"
   ],
   "note": "any exact solution of the assembled system (pyamg is an oracle)"
  },
  {
   "property": "C55",
   "status": "proved",
   "theorems": [
    "C55_slivers_exactly",
    "C55_computed_angle",
    "C55_collinear_never_listed",
    "C55_flat_listed"
   ],
   "note": "exactly the cells with a defined dihedral angle outside the bounds, increasing; collinear cells never, flat cells with proper faces always; exact arithmetic (rounding could push a cosine beyond 1 and yield NaN: not modelled)"
  },
  {
   "property": "C56",
   "status": "proved",
   "theorems": [
    "C56_never_blocks_and_delivers",
    "C56_returned"
   ],
   "note": "any number of ranks >= 2, any number of iterations, any interleaving, any choice of buffering; MPI layer modelled as FIFO channels per pair of ranks; the tables of each iteration are given"
  },
  {
   "property": "C57",
   "status": "proved",
   "theorems": [
    "C57_completes_iff",
    "C57_hangs",
    "C57_mixes_iterations"
   ],
   "note": "exact condition for completion, which rank hangs, and the run that mixes two iterations"
  },
  {
   "property": "C58",
   "status": "proved",
   "theorems": [
    "C58_aggregate",
    "C58_cells_of_all_ranks"
   ],
   "note": "assembly on rank 0 for any number of ranks and schedule, and its combination with each rank's fix_mesh; Reduce modelled by its result"
  },
  {
   "property": "C59",
   "status": "proved",
   "theorems": [
    "C59_table",
    "C59_delivered"
   ],
   "note": "CGAL's circle/box test is a parameter; table, selection, and the end-to-end exchange of one iteration"
  },
  {
   "property": "C60",
   "status": "proved",
   "theorems": [
    "C60_view_exceeds_buffer",
    "C60_write_beyond_buffer"
   ],
   "note": "buffer length against view length, foreign entries of the last row, and exactly when a write leaves the buffer"
  },
  {
   "property": "C61",
   "status": "proved",
   "theorems": [
    "C61_sound",
    "C61_complete",
    "C61_sent_to_one_only",
    "C61_missed"
   ],
   "note": "soundness and completeness of the selection for any test between circle and disk, and two witnesses of missed vertices"
  },
  {
   "property": "C62",
   "status": "proved",
   "theorems": [
    "C62_blocks",
    "C62_cover"
   ],
   "note": "exact arithmetic; blocks are exactly the non-empty slabs of equal width, in order"
  },
  {
   "property": "C63",
   "status": "proved",
   "theorems": [
    "C63_duplicates",
    "C63_too_many_blocks"
   ],
   "note": "universal duplicate theorem and a witness of four blocks for two requested"
  },
  {
   "property": "C64",
   "status": "proved",
   "theorems": [
    "C64_point_outside_local_sizing_grid"
   ],
   "note": "for both axes, a witness with two ranks"
  },
  {
   "property": "C65",
   "status": "proved",
   "theorems": [
    "C65_spacing",
    "C65_no_point_twice",
    "C65_covers_box",
    "C65_extent",
    "C65_starts_at_corner"
   ],
   "note": "no duplicates, spacing h0, covering radius h0/2, extent, lower corner; exact arithmetic"
  },
  {
   "property": "C66",
   "status": "proved",
   "theorems": [
    "C66_ranks_disjoint",
    "C66_spacing_within_a_rank",
    "C66_one_rank_is_serial",
    "C66_first_gap_is_h0",
    "C66_later_gaps",
    "C66_narrow_blocks_empty",
    "C66_closer_than_h0"
   ],
   "note": "disjoint ranks, exact gaps between consecutive ranks, witness for points closer than h0, empty ranks for narrow blocks"
  },
  {
   "property": "C67",
   "status": "proved",
   "theorems": [
    "C67_local_sizing_covers"
   ],
   "note": "every initial point of a rank lies between grid coordinates of its local sizing grid along every axis"
  },
  {
   "property": "C68",
   "status": "proved",
   "theorems": [
    "C68_budget",
    "C68_otherwise_no_mesh",
    "C68_negative_refused",
    "C68_runs_forever"
   ],
   "note": "exact number of triangulations for whole max_iter, no mesh otherwise, explicit non-terminating run; back end arbitrary"
  },
  {
   "property": "C69",
   "status": "proved",
   "theorems": [
    "C69_cells_inside",
    "C69_unused_vertices"
   ],
   "note": "one process; back end arbitrary (np.unique assumed to return the distinct elements); witness with an unused vertex"
  },
  {
   "property": "C70",
   "status": "proved",
   "theorems": [
    "C70_forces_cancel",
    "C70_force_law",
    "C70_push_sign",
    "C70_isolated",
    "C70_always_compressed",
    "C70_force_step",
    "C70_no_drift"
   ],
   "note": "forces cancel; neighbour-sum law with the exact desired length; sign; isolated vertices; fixed vertices; no drift; always some compressed bar"
  },
  {
   "property": "C71",
   "status": "proved",
   "theorems": [
    "C71_who_moves",
    "C71_levels_untouched",
    "C71_affine_lands",
    "C71_small_gradient_residual",
    "C71_step_bound",
    "C71_improve",
    "C71_improve_fails"
   ],
   "note": "exact selection rule, affine case exact and nearest, small-gradient residual, step bound for any function, final improvement of boundary vertices"
  },
  {
   "property": "C72",
   "status": "proved",
   "theorems": [
    "C72_shape_ignored",
    "C72_enclosing_box",
    "C72_own_domain",
    "C72_other_dimensions"
   ],
   "note": "independence of the shape, enclosing box, own domain otherwise; exact arithmetic for the box"
  },
  {
   "property": "C73",
   "status": "proved",
   "theorems": [
    "C73_no_slivers",
    "C73_last_triangulation",
    "C73_budget",
    "C73_other_ranks",
    "C73_plane_refused",
    "C73_cap_keeps_slivers",
    "C73_runs_forever",
    "C73_default_bounds"
   ],
   "note": "no slivers before the cap, budget, witness at the cap, non-termination for 0, default bounds; back end arbitrary"
  },
  {
   "property": "C74",
   "status": "proved",
   "theorems": [
    "C74_numbering",
    "C74_stale_out_of_range",
    "C74_stale_clash"
   ],
   "note": "CGAL is any implementation meeting stated relations; both positive and negative half for arbitrary histories"
  },
  {
   "property": "C75",
   "status": "proved",
   "theorems": [
    "C75_accepted_calls",
    "C75_zero_accepted",
    "C75_integer_boxes_rejected",
    "C75_verbosity",
    "C75_merged_box_is_smallest",
    "C75_mixed_dimensions_truncate"
   ],
   "note": ""
  },
  {
   "property": "C76",
   "status": "proved",
   "theorems": [
    "C76_quality_ignores_last_corner",
    "C76_flat_tetrahedron_scores_1"
   ],
   "note": "exact arithmetic"
  },
  {
   "property": "C77",
   "status": "proved",
   "theorems": [
    "C77_own_vertices_kept",
    "C77_duplicates_lose_vertices",
    "C77_idle_rank_loses_vertex",
    "C77_zero_count_loses_all"
   ],
   "note": "assumes the triangulation lists inserted ghosts after the vertices it had before (stated in the theorem as the shape of the vertex list)"
  },
  {
   "property": "C78",
   "status": "proved",
   "theorems": [
    "C78_rounding_drops_points"
   ],
   "note": "binary64 via Flocq (FLT, round to nearest even), every operation rounded"
  },
  {
   "property": "C79",
   "status": "proved",
   "theorems": [
    "C79_distribution",
    "C79_sizes",
    "C79_every_point_owned",
    "C79_hangs"
   ],
   "note": "any number of ranks, schedule and buffering; bcast modelled as sends of the root in the order of the calls; exact arithmetic for the decomposition"
  },
  {
   "property": "C80",
   "status": "proved",
   "theorems": [
    "C80_axis2"
   ],
   "note": "exact arithmetic"
  },
  {
   "property": "C81",
   "status": "proved",
   "theorems": [
    "C81_remove",
    "C81_move",
    "C81_exchange_loses_a_vertex"
   ],
   "note": "CGAL's move onto an occupied position deletes the moved vertex (documented behaviour, assumed)"
  },
  {
   "property": "C82",
   "status": "proved",
   "theorems": [
    "C82_edges_2d",
    "C82_edges_3d"
   ],
   "note": "2D and 3D; adjacency information of CGAL assumed correct with respect to the cell table"
  },
  {
   "property": "C83",
   "status": "proved",
   "theorems": [
    "C83_size_function",
    "C83_between_hmin_and_hmax",
    "C83_never_below_hmin",
    "C83_in_the_box",
    "C83_outside_refuted"
   ],
   "note": "nodes, cells, range in the box, explicit extrapolation witness; grid coordinates rounded by an arbitrary function unless stated"
  },
  {
   "property": "C84",
   "status": "proved",
   "theorems": [
    "C84_graded",
    "C84_graded_along_depth",
    "C84_other_axes_refuted"
   ],
   "note": "Lipschitz bound from the limiter's postcondition; explicit violation along a non-depth axis"
  },
  {
   "property": "C85",
   "status": "proved",
   "theorems": [
    "C85_initial_points",
    "C85_rejection",
    "C85_constant_size",
    "C85_r0m_is_h0_keeps_fewer",
    "C85_user_points",
    "C85_no_grid_point"
   ],
   "note": "exact selection rule for arbitrary random numbers; constant size; r0m_is_h0 comparison; user points; failing call"
  },
  {
   "property": "C86",
   "status": "proved",
   "theorems": [
    "C86_one_iteration",
    "C86_fixed_points_stay",
    "C86_nearest_vertex_stays",
    "C86_last_triangulation",
    "C86_generate_mesh",
    "C86_last_stage_ignores_fixed",
    "C86_on_the_boundary_kept_3d",
    "C86_outside_refuted",
    "C86_lost_at_the_end_refuted"
   ],
   "note": "invariant over iterations for a triangulation that keeps its points; two explicit failing runs; 2D last stage only by independence of the fixed points"
  },
  {
   "property": "C87",
   "status": "proved",
   "theorems": [
    "C87_segy_layout",
    "C87_extension_decides",
    "C87_raw_layout",
    "C87_file_written",
    "C87_fits_the_size_function",
    "C87_units_ignored",
    "C87_km_s_refuted",
    "C87_padding_arguments"
   ],
   "note": "exact layout; file name, extents and samples; km/s and negative padding shown as explicit failures"
  },
  {
   "property": "C88",
   "status": "proved",
   "theorems": [
    "C88_same_result_in_all_runs",
    "C88_ends_once_ends_always_if_buffered",
    "C88_ends_unbuffered_ends_always",
    "C88_hangs_once_hangs_always",
    "C88_buffering_matters",
    "C88_tags_matter"
   ],
   "note": "confluence for arbitrary data-dependent programs; collectives are modelled as point-to-point messages under a tag of their own; tags as in the code"
  },
  {
   "property": "C89",
   "status": "proved",
   "theorems": [
    "C89_run",
    "C89_cells_inside",
    "C89_fixed_points_ignored",
    "C89_exported_points"
   ],
   "note": "lock-step specification Spec/Lockstep.v; triangulation, point insertion and box test arbitrary; explicit two-rank run"
  },
  {
   "property": "C90",
   "status": "proved",
   "theorems": [
    "C90_first_iteration_exchanges_nothing",
    "C90_one_iteration_leaves_gaps"
   ],
   "note": "exact arithmetic; CGAL assumed to return vertices of the block; explicit six-point case"
  },
  {
   "property": "C91",
   "status": "proved",
   "theorems": [
    "C91_empty_slab_hangs",
    "C91_thinned_out_hangs",
    "C91_too_few_blocks_hangs"
   ],
   "note": "starvation invariants; collectives as point-to-point messages; three explicit cases"
  },
  {
   "property": "C92",
   "status": "proved",
   "theorems": [
    "C92_linter",
    "C92_returns_3d",
    "C92_ties_delete_both",
    "C92_ranks_not_compared"
   ],
   "note": "exact arithmetic; explicit 3D case of a tie"
  },
  {
   "property": "C93",
   "status": "proved",
   "theorems": [
    "C93_one_sided_export_hangs"
   ],
   "note": "last iteration only: after a one-sided exchange in an earlier iteration a later message may be taken for the missing one."
  },
  {
   "property": "C94",
   "status": "proved",
   "theorems": [
    "C94_gradient_sizes",
    "C94_mirrored_at_the_ends",
    "C94_no_change_no_sizes",
    "C94_small_stencil"
   ],
   "note": "scipy.ndimage.uniform_filter is modelled explicitly (Model/UFilter.v: moving averages with reflection), exact arithmetic."
  },
  {
   "property": "C95",
   "status": "proved",
   "theorems": [
    "C95_accepted_calls",
    "C95_function_built",
    "C95_box",
    "C95_limits_not_compared",
    "C95_defaults"
   ],
   "note": "Exact arithmetic. The interpolant is shown to exist for exact coordinates and at least two samples per axis (C95_function_built)."
  },
  {
   "property": "C96",
   "status": "proved",
   "theorems": [
    "C96_all_ranks_get_the_box",
    "C96_rank0_error_hangs_the_others",
    "C96_unknown_keyword"
   ],
   "note": "comm.bcast written as sends and receives; reader exceptions and NaN on rank 0 not modelled separately."
  },
  {
   "property": "C97",
   "status": "proved",
   "theorems": [
    "C97_merged_are_close",
    "C97_close_are_merged",
    "C97_zero_separates",
    "C97_tear_stays_refuted"
   ],
   "note": "binary64 rounding of the quotient, the product and the width (Model/Snap.v); NaN (all vertices at one place), overflow and an input coordinate -0.0 not modelled"
  },
  {
   "property": "C98",
   "status": "proved",
   "theorems": [
    "C98_disk",
    "C98_ball",
    "C98_side_disk",
    "C98_side_ball",
    "C98_outside_unnoticed_refuted"
   ],
   "note": "Flocq binary64 with gradual underflow; overflow not modelled."
  },
  {
   "property": "C99",
   "status": "proved",
   "theorems": [
    "C99_no_grading",
    "C99_grading",
    "C99_limiter",
    "C99_larger_velocity_smaller_size_refuted",
    "C99_off_is_finest"
   ],
   "note": "Exact arithmetic. The tolerance statement without padding; the comparison without grading with any padding."
  },
  {
   "property": "C100",
   "status": "proved",
   "theorems": [
    "C100_area",
    "C100_volume",
    "C100_fix_mesh_2d",
    "C100_fix_mesh_3d",
    "C100_clockwise_refuted"
   ],
   "note": "Forward error analysis with Flocq; overflow and fused multiply-add excluded, einsum of three products summed from the left."
  },
  {
   "property": "C101",
   "status": "proved",
   "theorems": [
    "C101_rounds",
    "C101_direction",
    "C101_length",
    "C101_default_step",
    "C101_reach",
    "C101_undefined_direction"
   ],
   "note": "Exact arithmetic. C101_rounds gives the history of a returning call, C101_direction/C101_length the geometry of a move, C101_default_step and C101_reach its consequences, C101_undefined_direction the degenerate sliver."
  },
  {
   "property": "C102",
   "status": "proved",
   "theorems": [
    "C102_gathered",
    "C102_fixed",
    "C102_none_in_3d",
    "C102_own_corners",
    "C102_union",
    "C102_intersection_keeps_all",
    "C102_difference_keeps_all",
    "C102_rotated",
    "C102_padded",
    "C102_fixed_outside"
   ],
   "note": "Exact arithmetic, sharp set operations for the union/intersection/difference statements."
  },
  {
   "property": "C103",
   "status": "proved",
   "theorems": [
    "C103_only_ratios_matter",
    "C103_constant_function",
    "C103_sliver_removal_ignores_sizes",
    "C103_r0m_is_h0_refuted"
   ],
   "note": "Exact arithmetic (in double precision exact for powers of two); one process."
  },
  {
   "property": "C104",
   "status": "proved",
   "theorems": [
    "C104_conversions",
    "C104_unit_of_length",
    "C104_unit_of_time",
    "C104_feet",
    "C104_not_scaled_refuted"
   ],
   "note": "Exact arithmetic; sizes at the samples of the grid."
  },
  {
   "property": "C105",
   "status": "proved",
   "theorems": [
    "C105_ungraded",
    "C105_graded",
    "C105_default_window_refuted"
   ],
   "note": "Reversal of the depth axis is excluded: water is looked for in rows other than row 0 and only one side of that axis is padded. Exact arithmetic. The graded half assumes both results graded with tolerance tol (C02 gives it when the limiter converges)."
  },
  {
   "property": "C106",
   "status": "proved",
   "theorems": [
    "C106_generate_mesh",
    "C106_steep_levels",
    "C106_sliver_removal",
    "C106_domains",
    "C106_floor_refuted"
   ],
   "note": "C106_generate_mesh (run that meets neither place), C106_steep_levels (sufficient conditions on the inputs), C106_sliver_removal, C106_domains, C106_floor_refuted (the failing region is not empty)."
  },
  {
   "property": "C107",
   "status": "proved",
   "theorems": [
    "C107_ignored_keywords",
    "C107_sliver_ignored",
    "C107_verbose",
    "C107_improvement_3d",
    "C107_order",
    "C107_sliver_order",
    "C107_defaults",
    "C107_sliver_defaults",
    "C107_max_angle_default_refuted",
    "C107_full_call",
    "C107_full_call_subdomains",
    "C107_function_subdomain_needs_bbox",
    "C107_seed",
    "C107_seed_float_refuted",
    "C107_empty_pfix",
    "C107_refused_values",
    "C107_bbox_list",
    "C107_flags",
    "C107_sliver_flags",
    "C107_seed_values"
   ],
   "note": "Both halves proved. One process; explicit bbox=None, arrays used as flags and a flat pfix are not modelled; of several failing tests the model may report another one than Python."
  },
  {
   "property": "C108",
   "status": "proved",
   "theorems": [
    "C108_near_exact",
    "C108_covers_box",
    "C108_extent",
    "C108_spacing",
    "C108_rows",
    "C108_exact_multiples",
    "C108_extra_row_refuted",
    "C108_missing_row_refuted"
   ],
   "note": "Both halves proved (one process). Overflow not modelled."
  },
  {
   "property": "C109",
   "status": "proved",
   "theorems": [
    "C109_bounds",
    "C109_bounds_double",
    "C109_bounds_rounded",
    "C109_velocity",
    "C109_wavelength",
    "C109_courant_step",
    "C109_courant",
    "C109_lower_bound",
    "C109_lower_bound_2d",
    "C109_single_below_hmin_refuted",
    "C109_below_hmin_3d_refuted",
    "C109_gradient_sizes"
   ],
   "note": "Overflow and NaN are outside the model; rows written by linear_ramp padding are left open and excluded where it matters."
  },
  {
   "property": "C110",
   "status": "proved",
   "theorems": [
    "C110_layers",
    "C110_layers_off_by_one",
    "C110_whole_cells",
    "C110_missing_layer_refuted",
    "C110_box"
   ],
   "note": ""
  },
  {
   "property": "C111",
   "status": "proved",
   "theorems": [
    "C111_checked_then_moved",
    "C111_kept_if_on_boundary",
    "C111_inverted_refuted",
    "C111_empty_refuted"
   ],
   "note": "C111_checked_then_moved, C111_kept_if_on_boundary; C111_inverted_refuted and C111_empty_refuted are full runs on a square."
  },
  {
   "property": "C112",
   "status": "proved",
   "theorems": [
    "C112_same_below",
    "C112_undefined_beyond",
    "C112_exact"
   ],
   "note": "Model/Int32.v checks every int operation; exact limit, including 2^31 - 1 (a prime, so the grid is a line and the last node's successor overflows)."
  },
  {
   "property": "C113",
   "status": "proved",
   "theorems": [
    "C113_same_as_without",
    "C113_cells_inside",
    "C113_needs_everyone",
    "C113_killed_inside"
   ],
   "note": "C113_same_as_without holds for arbitrary programs over the message layer; C113_needs_everyone and C113_killed_inside under the hypotheses of C89_run"
  },
  {
   "property": "C114",
   "status": "proved",
   "theorems": [
    "C114_unsmoothed",
    "C114_one_iteration",
    "C114_smoothed",
    "C114_nothing_else_dropped"
   ],
   "note": "C114_unsmoothed, C114_one_iteration, C114_smoothed; the solver is an oracle, its correctness a hypothesis of the averaging part"
  },
  {
   "property": "C115",
   "status": "proved",
   "theorems": [
    "C115_boundary",
    "C115_manifold",
    "C115_edges",
    "C115_boundary_entities",
    "C115_delete_2d",
    "C115_fix_mesh",
    "C115_delete_3d_refuted"
   ],
   "note": "positive theorems for boundary, manifold, edges, entities, fix_mesh and 2D deletion; C115_delete_3d_refuted is the 3D failure"
  },
  {
   "property": "C116",
   "status": "proved",
   "theorems": [
    "C116_message",
    "C116_close",
    "C116_initial_points",
    "C116_exact_at_nodes",
    "C116_gradation",
    "C116_far_refuted"
   ],
   "note": "C116_far_refuted is the extrapolation failure"
  },
  {
   "property": "C117",
   "status": "proved",
   "theorems": [
    "C117_sees_its_box",
    "C117_local_cell_is_global",
    "C117_global_cell_is_local",
    "C117_outside_missed_refuted"
   ],
   "note": "Sending to the process below always works; sending to the process above only if the cells at the vertex do not also reach the box below (a vertex is sent one way only, C59/C61). The overflow of the export table (C60) is excluded by requiring a vertex that stays. The failing region (other axes are not padded) has a two-process witness, C117_outside_missed_refuted."
  },
  {
   "property": "C118",
   "status": "proved",
   "theorems": [
    "C118_data",
    "C118_segy",
    "C118_raw",
    "C118_wrong_nz",
    "C118_wrong_shape",
    "C118_missing",
    "C118_short_box",
    "C118_long_box",
    "C118_list_box"
   ],
   "note": "Model/SizingCall.v composes the reading, the defaults, numpy broadcasting, padding and interpolation; every half, including the silent cases, is proved for all arguments."
  },
  {
   "property": "C119",
   "status": "proved",
   "theorems": [
    "C119_slope",
    "C119_clearance",
    "C119_crossing",
    "C119_shrunk_overestimates",
    "C119_repeat_jumps",
    "C119_mesh"
   ],
   "note": "Spec/Solids.v defines the family; real arithmetic (rounding of eval is in C98/C21); generate_mesh part on one process."
  },
  {
   "property": "C120",
   "status": "proved",
   "theorems": [
    "C120_every_sweep",
    "C120_smoothing_never_lengthens",
    "C120_solution_is_the_minimum",
    "C120_total_area_kept",
    "C120_triangles_stay_positive_refuted"
   ],
   "note": "Exact real arithmetic; the linear solver returns an exact solution."
  },
  {
   "property": "C121",
   "status": "proved",
   "theorems": [
    "C121_generate_mesh",
    "C121_sliver_removal",
    "C121_domains",
    "C121_translate_option",
    "C121_translated_corners_refuted"
   ],
   "note": "exact arithmetic; CGAL, np.unique keys and pyamg assumed to commute with the move"
  },
  {
   "property": "C122",
   "status": "proved",
   "theorems": [
    "C122_points_drawn",
    "C122_sizes_drawn",
    "C122_small_domains",
    "C122_plot_fails",
    "C122_show"
   ],
   "note": "matplotlib is not modelled; np.arange in exact arithmetic"
  },
  {
   "property": "C123",
   "status": "proved",
   "theorems": [
    "C123_never_farther",
    "C123_geometric",
    "C123_limit_is_fixed_point",
    "C123_positive_tol_stops_far_refuted"
   ],
   "note": "Exact arithmetic; pyamg is an oracle returning an exact solution. The failing half is C123_positive_tol_stops_far_refuted."
  },
  {
   "property": "C124",
   "status": "proved",
   "theorems": [
    "C124_isometry",
    "C124_affine_without_stopping",
    "C124_affine_fixed_point",
    "C124_stretch_refuted"
   ],
   "note": "Exact arithmetic; pyamg is an oracle returning an exact solution. The failing half is C124_stretch_refuted."
  },
  {
   "property": "C125",
   "status": "proved",
   "theorems": [
    "C125_numbering",
    "C125_fixed_point",
    "C125_tie_refuted"
   ],
   "note": "Exact arithmetic (in floats the order of summation matters). The failing half is C125_tie_refuted."
  },
  {
   "property": "C126",
   "status": "proved",
   "theorems": [
    "C126_edges_of_two_tetrahedra",
    "C126_is_manifold_counts",
    "C126_is_manifold_3d_refuted",
    "C126_doubled_tetrahedron_is_manifold",
    "C126_laplacian2_tetrahedra",
    "C126_laplacian2_array_rank",
    "C126_laplacian2_plane",
    "C126_fixed_point_raises"
   ],
   "note": "Both halves: exact outcomes and refutation of the documented meaning in 3D."
  },
  {
   "property": "C127",
   "status": "proved",
   "theorems": [
    "C127_near_exact_sweeps",
    "C127_box",
    "C127_leaves_the_hull_refuted",
    "C127_short_edges_stop"
   ],
   "note": "Both halves: error bound against exact sweeps, exactness of held vertices, and the counterexample to the exact hull property."
  },
  {
   "property": "C128",
   "status": "proved",
   "theorems": [
    "C128_close",
    "C128_no_quality_refuted",
    "C128_above_one_refuted",
    "C128_not_overrated",
    "C128_deleted",
    "C128_decision",
    "C128_thin_stays_refuted",
    "C128_worse",
    "C128_no_quality_goes_first"
   ],
   "note": "Overflow is not modelled; sqrt is correctly rounded; squares are summed from the left."
  },
  {
   "property": "C129",
   "status": "proved",
   "theorems": [
    "C129_torus",
    "C129_prism",
    "C129_cylinder",
    "C129_torus_side",
    "C129_prism_side",
    "C129_cylinder_side",
    "C129_outside_unnoticed_refuted",
    "C129_exact_formulas"
   ],
   "note": "Overflow is not modelled; rotation, stretch and translation in floating point are not covered."
  },
  {
   "property": "C130",
   "status": "proved",
   "theorems": [
    "C130_listed_exactly",
    "C130_cosine_close",
    "C130_bad_listed",
    "C130_listed_bad",
    "C130_flat_unlisted_refuted",
    "C130_thin_unlisted_refuted"
   ],
   "note": "Both halves: exact description of the computed list; concrete cells evaluated through Flocq's operations, proved equal to round-to-nearest of the real operations; error bound of the cosine for tetrahedra without thin faces."
  },
  {
   "property": "C131",
   "status": "proved",
   "theorems": [
    "C131_sharp",
    "C131_sharp_side",
    "C131_smooth",
    "C131_far_apart",
    "C131_disks"
   ],
   "note": "Rounding after every operation; the exact smoothed minimum is 1-Lipschitz, so operand errors do not grow."
  }
 ]
}