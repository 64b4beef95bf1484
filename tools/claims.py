c("C01","proved","C01_storage_history C01_construct_fill_load C01_short_vector_refuted","set(data,w,h) does not check the vector size; the last theorem shows the documented size condition is needed.")
c("C02","proved","C02_classification C02_default C02_exactly_one C02_thresholds_needed","")
c("C06","proved","C06_area_free C06_area_occupied C06_area_write C06_area_own_value C06_area_noinfo_meaning C06_area_noinfo_refuted","Every sentence is a theorem; the last one is a finding about the code (expected: 'there is no information about the area'). The other area classes are the subject of C07.")
c("C07","proved","C07_robot_area_iteration C07_line_area_cells C07_circle_line_visits C07_circle_line_query C07_values C07_circle_line_iteration_refuted C07_first_cell_skipped_refuted","Every sentence is a theorem; what circle and line areas do is a finding about the code.")
c("C08","proved","C08_circle_covers_disc C08_circle_extent C08_circle_shape_refuted","Every sentence is a theorem; the last one (expected: one-cell accuracy and eightfold symmetry) is a finding about the code.")
c("C09","proved","C09_C10_C11_line_walk C09_outside C09_reads C09_reads_unset","")
c("C10","proved","C09_C10_C11_line_walk","")
c("C11","proved","C09_C10_C11_line_walk C11_direction_dependent","")
c("C12","proved","C12_line_free_inside C12_line_free_or_unknown_inside C12_line_free_refuted","Every sentence is a theorem; the last one (expected: all cells including the start; not free outside) is a finding about the code.")
c("C29","proved","C29_grid_lookup C29_directional_lookup C29_directional_injective C29_pose_directional C29_pose_separate C29_pose_statespace C29_own_heading_refuted","Lookup by cell/slot/direction and by pose (real headings, AngleClamp contract). 'Different orientations' means at least one slot width apart: poses sharing a node are in the same cell and direction with headings less than one slot apart. Beyond the property, C29_own_heading_refuted shows a node is not found under the exact heading it was created with (slot t is looked up as t-1).")
c("C30","proved","C30_chunk_lookup_inner C30_chunk_injective C30_border_refuted C30_hasNode C30_hasNode_refuted","Every sentence is a theorem; the last one (expected: contains() implies lookup succeeds) is a finding about the code.")
c("C31","proved","C31_line C31_skips C31_skips_defined C31_line_outside C31_line_free_inside C31_line_free_refuted","Every sentence is a theorem (cell end points); the last one (expected: true only if no occupied cell lies on the segment) is a finding about the code.")
c("C13","proved","C13_path_valid","Arbitrary cost arithmetic, every reachable search object.")
c("C14","proved","C14_complete C14_failure","Termination is part of the statement: the model's fuel never runs out.")
c("C15","proved","C15_history_independent","")
c("C16","proved","C16_no_ub","")
c("C18","proved","C18_setNewMap C18_setNewMap_inplace_refuted","Both sentences are theorems; the second one is a finding about the code.")
c("C17","proved","C17_bounded_ieee C17_bounded_ieee_numbers C17_bounded_exact C17_cheapest_refuted","Binary32/binary64 with round to nearest even (Flocq). The code truncates node values to integers, so optimality is false (C17_cheapest_refuted); the bound holds for every map, query and history, and the conversions to int never overflow on maps of that size.")
c("C19","proved","C19_path_valid","GridMapManager + DirectNeighborhood; arbitrary arithmetic, open-list policy, options, clock and leftover node state.")
c("C20","proved","C20_complete C20_complete_ieee","Termination and completeness on a new object (or after setMap), for IEEE binary64 costs with rounding.")
c("C21","proved","C21_optimal C21_dijkstra_shortest C21_astar_goal_cell C21_optimal_ieee C21_dijkstra_ieee C21_astar_ieee C21_slack C21_cheapest_in_region_refuted","Exact arithmetic and IEEE binary64 with rounding (Flocq); every sentence is a theorem. The external DynamicPrioritySet is a parameter with the named contract.")
c("C22","proved","C22_setMap_resets C22_reuse_refuted","Both sentences are theorems; the second one (expected: every findPath depends on the map and the arguments only) is a finding about the code.")
c("C23","proved","C23_reversed_order C23_first_cell_refuted","Both sentences are theorems; the second one is a finding about the code.")
c("C24","proved","C24_not_free C24_outside C24_just_below_zero C24_outside_refuted","Every sentence is a theorem; all but the first one (expected: the documented empty path, no exception) are findings about the code. For the vehicle search see C61/C62.")
c("C25","proved","C25_offered C25_offered_once C25_isGoal C25_delta_euclid","")
c("C26","proved","C26_marks_independent C26_mark_constants","Every history of mark/unMark.")
c("C27","proved","C27_queue_fifo C27_queue_defined C27_queue_size C27_clear C27_stack_lifo C27_stack_once C27_priority_minimal C27_queue_remove_refuted","DynamicPrioritySet is external: its contract (top compares greater than no other element) is a hypothesis. The last sentence is a finding about the code.")
c("C28","proved","C28_intermission_steps C28_once_per_step C28_never C28_second_search_refuted","Both sentences are theorems; the second one is a finding about the code.")
c("C32","proved","C32_consistent C32_path_bound C32_admissible C32_admissible_ieee C32_nonneg C32_norms C32_max C32_L1_eight_refuted C32_L2_over_refuted","Exact arithmetic, admissibility also in binary64; L1 for the 4-neighbourhood only (refuted for 8), L2OverEstimate refuted.")
c("C54","proved","C54_best_candidate","")
c("C03","proved","C03_cell_roundtrip C03_point_cell C03_half_cell C03_subpixel_inverse C03_subpixel C03_origin C03_left_strip_refuted C03_roundtrip_ieee C03_half_cell_ieee","Exact arithmetic and (_ieee) binary64; C03_left_strip_refuted shows the 'right of the origin' condition is needed.")
c("C04","proved","C04_inside_has_cell C04_cases C04_inside_has_cell_refuted C04_inside_ieee C04_border_ieee C04_left_ieee_refuted","Exact arithmetic and (_ieee) binary64; every sentence is a theorem; the second one (expected: isInMap implies an in-map cell) is a finding about the code.")
c("C05","proved","C05_frame C05_cell_centre C05_cell_roundtrip C05_square C05_subpixel_unrotated C05_subpixel_refuted C05_origin_unrotated C05_origin_refuted C05_set_moves_origin_refuted C05_isInMap_unit C05_isInMap_refuted C05_origin_ieee C05_frame_ieee C05_centre_ieee C05_square_ieee C05_answer_ieee C05_coordinates C05_roundtrip_ieee","Exact arithmetic and (_ieee) binary64 with cos/sin accurate to 2^-52 (trig_accurate), corner at most 2^32 cells from zero; every sentence is a theorem; the negative parts (expected: getOrigin returns what setOrigin set, sub-pixel conversions inverse, isInMap right, for every rotation) are findings about the code.")
c("C50","proved","C50_exact C50_ieee C50_ieee_refuted","IEEE binary64 and exact arithmetic; the exception is a finding about the code.")
c("C51","proved","C51_inverse C51_is_subpixel C51_inverse_ieee C51_inverse_map_ieee","Exact arithmetic and (_ieee) binary64.")
c("C52","proved","C52_vector_space C52_rotate_isometry C52_rotate_compose C52_rotate_linear C52_rotate_angle C52_ortho C52_resize C52_normalize C52_polar C52_pose_ops C52_pose_theta_dropped_refuted C52_metric C52_isEqual","Exact arithmetic; Pose2d operators drop theta.")
c("C53","proved","C53_samples_inside C53_corners C53_wrap C53_index C53_free_meaning C53_occupied_meaning C53_noinfo_meaning C53_outside C53_blind_ahead_refuted C53_orientation_refuted C53_wrap_ieee_refuted","Every sentence is a theorem; the last one (expected: free iff every in-map cell under the footprint at orientation theta is free) is a finding about the code.")
c("C43","proved","C43_footPoint C43_signed_distance C43_parallel C43_relative_position C43_on_segment C43_nearest C43_toPoints C43_toPoses C43_toPoses_start C43_line_of_pose C43_select C43_tolerance_refuted C43_on_segment_refuted C43_toPoses_start_refuted C43_isIdentical_refuted","Exact arithmetic; every sentence is a theorem; the last one is a finding about the code.")
c("C44","proved","C44_normalise C44_constructor C44_setStartAngle C44_setEndAngle C44_setArcAngle C44_end C44_history C44_setArc C44_createArcFrom C44_createArcTo C44_toPoses C44_toPoses_tail C44_toPoints_centred C44_isPointOnArc_sound C44_isPointOnArc_off_seam C44_nearest C44_normalise_ieee_refuted C44_setArc_refuted C44_createArcFrom_refuted C44_toPoints_refuted C44_isPointOnArc_refuted","Every sentence is a theorem (exact arithmetic unless said otherwise); the last one is a finding about the code.")
c("C45","proved","C45_circles C45_circles_single_complete C45_circles_defined C45_arcs C45_line_circle C45_line_circle_contact C45_stale_refuted C45_contact_refuted C45_contact_end_refuted C45_arc_extent_refuted","Every sentence is a theorem; the limits are findings about the code. Line/line intersection is delegated to a library and not modelled.")
c("C46","proved","C46_outer_contact_heading C46_tangentCircles C46_tangentArc_from_line C46_tangentArc_to_line C46_tangentArc_complete C46_path_line_to_circle C46_path_circle_to_line C46_path_exists C46_tangentInnerCircles C46_inner_touch C46_inner_contact_heading C46_inner_arcs C46_path_between_circles C46_path_between_exists C46_path_shape C46_from_small_refuted C46_inner_arcs_lost_refuted C46_helper_line C46_helper_three C46_helper_four","Every sentence is a theorem; reversal, missing paths and overlooked arcs are findings about the code. GeometryHelper: orientations must alternate, see C56.")
c("C37","proved","C37_accepts C37_rejects C37_aborts C37_documented C37_denoted_nth C37_return_inverted_refuted","Every sentence is a theorem; the last one is a finding about the code.")
c("C39","proved","C39_iterate C39_iterate_refuted","Both sentences are theorems; the second one is a finding about the code.")
c("C40","proved","C40_raster C40_weight C40_on_map C40_off_map_refuted","Every sentence is a theorem; the last one (expected: NOT_FREE for out-of-map cells) is a finding about the code.")
c("C38","proved","C38_best C38_candidate C38_collision_free C38_stateless C38_keeps_patterns C38_abort C38_never C38_limit_refuted","Exact arithmetic; every sentence is a theorem; the last one is a finding about the code.")
c("C41","proved","C41_on_arc C41_ring C41_ring_near C41_weight C41_off_arc_refuted C41_truncation_refuted","Exact arithmetic; every sentence is a theorem; the last one (expected: blocked iff a cell of the arc is outside or not free) is a finding about the code.")
c("C42","proved","C42_arc C42_arc_unique C42_points C42_empty_refuted C42_overshoot_refuted","Exact arithmetic; every sentence is a theorem; the last one is a finding about the code.")
c("C55","proved","C55_line C42_points C55_line_refuted C42_overshoot_refuted","Exact arithmetic; every sentence is a theorem; the last one (expected: at most the configured distance) is a finding about the code.")
c("C56","proved","C56_drive C46_helper_line C46_helper_three C46_helper_four C56_jump_refuted C56_overlap_refuted","Exact arithmetic; every sentence is a theorem; the second one is a finding about the code.")
c("C35","proved","C35_limit C35_increment C35_side C35_trip_limit C35_first_move C35_switch C35_dynamic_switch C35_nonholonomic_switch C35_nonholonomic_after C35_forward_only_refuted C35_after_switch_refuted C35_halfsteps_refuted","Exact arithmetic; every sentence is a theorem; the last one is a finding about the code.")
c("C36","proved","C36_bicycle C36_bicycle_dynamic C36_inverse C36_cost C36_cost_dynamic C36_trip_cost C36_nonholonomic C36_nonholonomic_moves","Exact arithmetic. Every move is the unique solution of the bicycle equations; opposite moves undo each other; the cost bounds the distance covered. The simple neighbourhood turns on the spot, then drives one step.")
c("C57","proved","C57_nonholonomic C57_dynamic C57_template_sound C57_template_complete","Exact arithmetic; MathHelper::AngleClamp by contract.")
c("C47","proved","C47_goals C47_new C47_exhausted C47_before_init C47_gain_refuted C47_zero_refuted","Exact arithmetic; MathHelper::Angle/AngleClamp by contract. Every sentence is a theorem; the last one is a finding about the code.")
c("C48","proved","C48_goals C48_new C48_kept C48_distinct C47_exhausted","Exact arithmetic; rand() any sequence in [0,1].")
c("C49","proved","C49_best C49_outside C49_valid_curve C49_expensive_refuted","Composed with the curve generator model (C38). Every sentence is a theorem; the last one is a finding about the code.")
c("C58","proved","C58_goals C58_new C47_exhausted","utils::PoseList is external: modelled as a list of poses, a list of gains and a flag.")
c("C33","proved","C33_terminates C33_table C33_ieee C33_unset C33_padding C33_padding_cells C33_border_refuted C33_padding_refuted","Every sentence is a theorem; the last one (expected: shortest over all free cells) is a finding about the code.")
c("C34","proved","C34_valid C34_valid_ieee C34_outside C34_length C34_shortest_refuted C34_failure_refuted C34_border_refuted","Validity exactly and in binary64, length in exact arithmetic; every sentence is a theorem; the third one is a finding about the code.")
c("C59","proved","C59_dynamic_least_first C59_template_least_first C59_dynamic_any_order C59_template_any_order C59_dynamic_no_repeat C59_queue_refuted","Every sentence is a theorem; the last one is a finding about the code.")
c("C60","proved","C60_dynamic_goal C60_template_goal C60_heading_refuted","Exact arithmetic, first search after setMap. Every sentence is a theorem; the last one (expected: within the thresholds of the requested pose) is a finding about the code.")
c("C61","proved","C61_dynamic_ends C61_template_ends C61_exception_refuted","Exact arithmetic, first search after setMap. Every sentence is a theorem; the last one is a finding about the code.")
c("C62","proved","C62_dynamic_cells C62_template_cells C62_unchecked C62_walls_refuted","Exact arithmetic, first search after setMap. Every sentence is a theorem; the last one (expected: no obstacle on any connection) is a finding about the code.")
c("C63","proved","C63_dynamic_start C63_template_start C63_occupied_start_refuted C63_heading_refuted","Exact arithmetic, first search after setMap. Every sentence is a theorem; the last one is a finding about the code.")
c("C64","proved","C64_perfect C64_ends C64_image C64_connected C64_one_way C64_second_run_refuted C64_strip_refuted C64_single_refuted C64_width_one_refuted","The last four theorems show that the conditions are needed: a second run() of the same object never ends, a start right of the last whole room writes in front of the array, a single room stays black, and width 1 (which the evaluator passes for small selections) lays three quarters of the rooms off the image and can cut the visible ones apart.")
c("C65","proved","C65_curve C65_run C65_one_way C65_connected C65_margin_refuted C65_cut_refuted","Limits: the first row and column of rooms stay black, and on images smaller than 257 rooms per side the corridor is cut into pieces.")
c("C66","proved","C66_schedule C66_gate_defined C66_regular C66_first C66_success C66_complete C66_defined C66_joined C66_stale_refuted C66_backward_refuted C66_start_refuted","Exact arithmetic. Every sentence is a theorem, for all histories of the shared instance; the last one (expected: every search starts afresh, backward nodes are expanded as well) is a finding about the code.")
c("C67","proved","C67_file C67_value C67_rigid C67_layer_refuted C67_mirrored_refuted C67_unset_refuted C67_init_refuted C67_opposite_refuted","Exact arithmetic and exactly written numbers; good_file is what the tool writes (C67_file). The heuristic is marked work in progress; the last sentence (expected: the entry of the pose itself) is a finding about the code.")
c("C68","proved","C68_path_valid C68_least_candidate C68_answer_alone C68_asked C68_reactions C68_complete C68_shortest C68_nearest C68_shortest_ieee C68_nearest_ieee","The test is any state machine that adds at most one candidate per call, the node it was asked about. Optimality for every monotone arithmetic and, with the bound on rounding, for binary64; the first four hold for every arithmetic and every state of the object. That a positive answer alone never yields a path is a finding about the code (result is never set with a goal test).")
c("C69","proved","C69_in_step C69_saved C69_restart C69_start C69_crash C69_first_crash C69_row C69_obstacle C69_maze C69_keys C69_unsaved_refuted","Numbers in the text file pass through an arbitrary function (what emitting and parsing makes of them); the restart theorems ask that the resolution survives it. cv::imwrite, opening and writing the text are single steps on the disk. The map generators are arbitrary partial functions here (their own properties are C64 and C65).")
c("C70","proved","C70_cheapest C70_fewest_steps C70_complete C70_not_shortest_refuted","C70_cheapest for every arithmetic that keeps the order of costs; the breadth-first search in binary64, exactly (no rounding slack: equal numbers of steps have equal sums, and the sums grow strictly for up to 2^32 steps).")
c("C71","proved","C71_move C71_angles C71_steering C71_same_second_refuted C71_settles C71_circle C71_straight C71_picture C71_pixel C71_range C71_inside C71_defined C71_bots C71_clock C71_reset_refuted","Exact real arithmetic instead of float. The simulator is switched off in CMakeLists.txt (113-116). That the steering lasts 1.1 s, is the same for all changes within a second, and that reset keeps the robots are findings about the code.")
c("C72","proved","C72_map C72_colours C72_shades C72_focus C72_search C72_search_refuted C72_stage C72_stage_refuted C72_marker C72_marker_refuted C72_path_refuted","Exact arithmetic. What cv::rectangle sets is a contract. The read in front of the table, the size of markers and the place of paths are findings about the code.")
c("C73","proved","C73_frames C73_count C73_speed_refuted","The wrong speed is a finding about the code.")
c("C74","proved","C74_own_test_calls C74_own_test C74_own_test_least C74_own_test_ends C74_oversearch_adds C74_oversearch_all C74_window C74_oversearch C74_oversearch_least C74_ends C74_plain C74_exhaustive C74_own_test_exhaustive","double is the set of real numbers; the first search on a new object after setMap; a goal test adds no node but the one it is asked about.")
c("C75","proved","C75_own_test C75_oversearch C75_defined","As C74. That candidates of a reversed search are not reversed is a finding about the code.")
c("C76","proved","C76_dynamic_empty C76_template_empty C74_own_test_exhaustive C74_exhaustive","double is the set of real numbers; up to slots, because a node keeps one pose of its slot. For SteeringNeighborhood the tests of the move see the contents of the predecessors at that time (exists prevs).")
c("C77","proved","C77_weighted C77_taxi C77_over C77_slack C77_taxi_shortest_refuted","costs, heuristic and sums in binary64 (Flocq); hypot and pow by their accuracy (contracts hypot_accurate, pow_accurate, met by correctly rounded functions). AStarOverEstimate itself is declared with DirectionalStateSpaceManager, whose lookup does not fit DirectNeighborhood; the theorem is about its heuristic on the grid manager.")
c("C78","proved","C78_observer C78_counts C78_per_search C78_exhausted C78_work C78_work_ieee C78_once_refuted C78_touched_refuted","the counters are unbounded integers in the model (int in the code); the 1 + 8*w*h bound holds in exact reals for consistent heuristics and in binary64 for Dijkstra; with a heuristic in binary64 rounding can reopen cells, so no such bound is claimed there.")
c("C79","proved","C79_observer C79_candidates C79_complete C79_goal_cell C79_exact_goal C79_ieee C79_window_refuted C79_twice_refuted","exact reals for the heuristics that fit the neighbourhood, binary64 for Dijkstra; the header comment speaks of the distance to the start, the code compares distance plus heuristic; the first search after setMap.")
c("C80","proved","C80_same C80_configuration_ignored C80_calls C80_path C80_least C80_exhaustive C80_candidates","the assignment of the whole node is commented out (SearchAlgorithm.hpp:504); first search after setMap on a new object.")
c("C81","proved","C81_map C81_map_faithful C81_map_small_refuted C81_pixel C81_edge_refuted C81_curve C81_stray_refuted C81_thin_refuted C81_nothing","calls of OpenCV with their arguments; which pixels OpenCV sets for a line or circle is not modelled; OpenCV from 3 on rejects thickness 0.")
c("C82","proved","C82_setMap_test C82_setMap_pose C82_occupied_goal C82_again C82_same C82_candidates C82_test_candidates C82_candidates_refuted","open lists that hand out a node of least total cost (C82_again, C82_same); C82_case: a drive of two poses that is found once, not a second time, and again after setMap. The second search keeps distances and closed marks because init does not reset the nodes.")
c("C83","proved","C83_path C83_added C83_test C83_candidates C83_test_candidates C83_ends C83_test_ends C83_first","used: an inductive definition of all histories. Drives are those of C58-C60 for each order of the open list (every move starts at some pose in the slot of the pose before). C83_case: an object after a drive, which is used again. Which paths are still found is the subject of C82.")
c("C84","proved","C84_ends C84_same_start C84_ends_ieee C84_same_start_ieee","in_use: new or after setMap, then any calls of findPath (later: further calls). The paths themselves are valid by C19, which holds for every state of the object. ex84_runs: an object used three times (one search stopped by the clock, one from an occupied cell); ex84_forever applies the theorem to it. C22 shows one lost path between other poses.")
c("C85","proved","C85_close C85_roundtrip C85_far_refuted","binary64 centre of GridGeomIeee.v rounded to binary32. fits: a map of ordinary size (as in C03_ieee). C85_far_refuted: the round trip is not true of every map. C85_example meets the hypotheses, with a point that differs from the double one.")
