# Formal model of cslibs_path_planning: design

Paths: `I/` = `/repo/include/cslibs_path_planning/`, `S/` = `/repo/src/`.

## Approach

* The code is modelled as total Gallina functions. Loops become structural
  recursion or fuel recursion whose out-of-fuel result is a distinct value that
  theorems exclude. Undefined behaviour (out-of-bounds access, null or
  end-iterator dereference, signed overflow, double-to-unsigned of a negative)
  is a distinct outcome (`None`/`UB`), never a default value.
* Combinatorial code (grids, Bresenham, searches, parsers, iterators,
  samplers) is modelled over `Z`/`nat`, with 32-bit wrap written explicitly
  where the C++ type wraps. Floating-point *costs* in searches are an abstract
  type with arbitrary operations wherever the theorem does not need arithmetic
  (so the theorem holds whatever IEEE rounding does); optimality theorems use
  exact arithmetic and say so, with a binary64 version beside them (C17, C21, C68).
* Geometric code is modelled over Coq's classical reals `R` (exact arithmetic).
  This idealises doubles; where rounding matters a separate binary64 result
  says so.
* Code outside the repository (Eigen, OpenCV, boost, cslibs_navigation_utilities:
  `MathHelper`, `DynamicPrioritySet`, `segmentIntersection`) enters as `Section`
  variables (universally quantified) with the contract written as hypotheses of
  the theorem.
* If the code violates the user-level property, the theorem is named
  `..._refuted` and exhibits a concrete run of the model; the strongest true
  restriction is proved beside it (`..._partial` if it covers only part).

## File layout

`theories/X.v` holds the model of one part, `theories/XProofs.v` its lemmas,
`theories/PropX.v` only theorems (`exact lemma`), `Print Assumptions`, and
non-vacuity `Example`s.

## Reading guide

`properties.jsonl` holds the English properties, `MANIFEST.json` the theorems of
each (both generated: `tools/props.py`, `tools/claims.py`, `tools/manifest.py`).
Many properties were first written the way a user would expect them and turned out
to be false of the code in some corner. Their statements now give the exact
guarantee and then name its limits; both halves are theorems, and the manifest note
says which sentence is a finding and what was expected.
Status `proved`: every sentence of the English statement is covered, for all inputs,
by the listed theorems. Theorem names:

* `Cxx_..._refuted`: a run of the model on which the expected statement fails,
  i.e. a bug or an undocumented limit of the code (a finding).
* `Cxx_..._partial`: one clause of the statement, under an extra hypothesis that
  the English does not have.
* `Cxx_...` without suffix: one clause of the statement, in full. A property with
  several clauses has several such theorems; the property is `proved` only if
  together they give every clause.
* `Cxx_..._case` and other `Example`s: a concrete case that meets the hypotheses.

Specification files that do not mention the code's helpers: `GridSpec.v` (cells,
maps), `PathSpec.v`, `DirectSpec.v` (walks, paths, costs), `GeomR.v` (points,
angles modulo full turns), and the definitions at the top of each `PropX.v`.

## Trusted base

1. **Coq 8.16.1's kernel** (with `vm_compute`'s reduction machine; `native_compute`
   is not used), and the parsing of the statements.
2. **Axioms.** None of our own. Print Assumptions lists, per theorem, one of the
   sets below: all are axioms of Coq's standard library, used by its classical
   reals (`sig_forall_dec`, `sig_not_dec`, `functional_extensionality_dep`) or by
   Flocq's binary64 proofs and classical case analysis on real statements
   (`Classical_Prop.classic`). The `Coq.ssr.ssrunder` names that the checker sees
   in the environment come with `lia` (ZifyBool loads ssreflect); no theorem here
   depends on them.
3. **The model.** That the Gallina functions do what the cited C++ lines do. Every
   definition cites its lines; the simplifications are listed under "Modelled code".
4. **Contracts of code outside the repository**, always hypotheses of the theorem
   (never axioms):
   * `MathHelper::AngleClamp` (`AngleClamp_contract` in GeomR.v): result in [-pi,pi],
     equal to the argument modulo full turns; `Clamp_halfopen` (PropRSArc.v) adds
     that only one of -pi and pi is used; `AngleDelta` likewise. `clamp_ref_ok`
     shows the contract can be met.
   * `std::cos`, `std::sin` in binary64 (`trig_accurate`, PropRotIeee.v): within 2^-52; met by the
     correctly rounded functions (trig_met). Products and sums are rounded one by one (no FMA).
   * `MathHelper::Angle` (`Angle_contract`, PropSampling.v): angle between two points.
   * `DynamicPrioritySet` and `std::priority_queue`: hand out an element that no
     other precedes (`min_pop_ok`, `min_pop_min` in OpenPolicies.v realise it).
   * `rand()`: any sequence; `utils::PoseList`: a list of poses, gains and a flag.
   * OpenCV, Qt, ROS, boost threads: not modelled; no theorem mentions them.
5. **Arithmetic.** Integers are Z with the wrap of the C++ type written out
   (`u32`, `i32`, `u8`; signed overflow and out-of-range conversions are `UB`).
   Reals stand for double/float in geometry, steering, Reeds-Shepp and sampling
   ("exact arithmetic" in the notes). Theorems about rounding use Flocq's binary64:
   C03, C04, C05, C17, C20, C21, C32, C33, C34, C51, C68, C78, C79 (`_ieee`), C44, C50, C53
   (`_ieee_refuted`).
   C13-C16, C19, C22-C24, C54 hold for every arithmetic whatsoever (costs are an
   abstract type with arbitrary operations).

### What Print Assumptions lists for each theorem

Generated by `tools/assumptions.py` after a build.

<!-- assumptions:begin -->
* **closed under the global context (no axioms)** (148 theorems): C01_construct_fill_load, C01_short_vector_refuted, C01_storage_history, C02_classification, C02_default, C02_exactly_one, C02_thresholds_needed, C06_area_free, C06_area_noinfo_meaning, C06_area_noinfo_refuted, C06_area_occupied, C06_area_own_value, C06_area_write, C07_circle_line_iteration_refuted, C07_circle_line_query, C07_circle_line_visits, C07_first_cell_skipped_refuted, C07_line_area_cells, C07_robot_area_iteration, C07_values, C08_circle_covers_disc, C08_circle_extent, C08_circle_shape_refuted, C09_C10_C11_line_walk, C09_outside, C09_reads, C09_reads_unset, C11_direction_dependent, C12_line_free_inside, C12_line_free_or_unknown_inside, C12_line_free_refuted, C13_path_valid, C14_complete, C14_failure, C15_history_independent, C16_no_ub, C18_setNewMap, C18_setNewMap_inplace_refuted, C19_path_valid, C20_complete, C22_reuse_refuted, C22_setMap_resets, C23_first_cell_refuted, C23_reversed_order, C24_just_below_zero, C24_not_free, C24_outside, C24_outside_refuted, C25_isGoal, C25_offered, C25_offered_once, C26_mark_constants, C26_marks_independent, C27_clear, C27_priority_minimal, C27_queue_defined, C27_queue_fifo, C27_queue_remove_refuted, C27_queue_size, C27_stack_lifo, C27_stack_once, C28_intermission_steps, C28_never, C28_once_per_step, C28_second_search_refuted, C29_directional_injective, C29_directional_lookup, C29_grid_lookup, C30_border_refuted, C30_chunk_injective, C30_chunk_lookup_inner, C30_hasNode, C30_hasNode_refuted, C31_line, C31_line_free_inside, C31_line_free_refuted, C31_line_outside, C34_border_refuted, C34_failure_refuted, C34_outside, C37_aborts, C37_accepts, C37_denoted_nth, C37_documented, C37_rejects, C37_return_inverted_refuted, C39_iterate, C39_iterate_refuted, C40_on_map, C40_raster, C41_ring, C54_best_candidate, C58_goals, C58_new, C64_connected, C64_ends, C64_image, C64_one_way, C64_perfect, C64_second_run_refuted, C64_single_refuted, C64_strip_refuted, C64_width_one_refuted, C65_connected, C65_curve, C65_cut_refuted, C65_margin_refuted, C65_one_way, C65_run, C66_joined, C66_start_refuted, C68_answer_alone, C68_asked, C68_complete, C68_least_candidate, C68_nearest, C68_path_valid, C68_reactions, C68_shortest, C69_crash, C69_first_crash, C69_in_step, C69_keys, C69_maze, C69_obstacle, C69_restart, C69_row, C69_saved, C69_start, C69_unsaved_refuted, C70_cheapest, C72_map, C72_marker, C72_marker_refuted, C72_path_refuted, C73_count, C73_frames, C73_speed_refuted, C78_counts, C78_exhausted, C78_observer, C78_per_search, C79_observer, C81_map, C81_map_faithful, C81_map_small_refuted, C84_ends, C84_same_start.
* **ClassicalDedekindReals.sig_forall_dec** (2 theorems): C33_unset, C67_init_refuted.
* **ClassicalDedekindReals.sig_forall_dec, FunctionalExtensionality.functional_extensionality_dep** (32 theorems): C03_cell_roundtrip, C03_half_cell, C03_left_strip_refuted, C03_origin, C03_point_cell, C03_subpixel, C03_subpixel_inverse, C04_cases, C04_inside_has_cell, C04_inside_has_cell_refuted, C21_slack, C31_skips, C31_skips_defined, C32_max, C43_select, C49_valid_curve, C50_exact, C51_inverse, C51_is_subpixel, C52_pose_theta_dropped_refuted, C52_vector_space, C71_pixel, C72_colours, C72_focus, C72_search, C72_search_refuted, C72_shades, C72_stage, C72_stage_refuted, C77_slack, C81_edge_refuted, C81_pixel.
* **ClassicalDedekindReals.sig_forall_dec, ClassicalDedekindReals.sig_not_dec, FunctionalExtensionality.functional_extensionality_dep** (148 theorems): C05_cell_centre, C05_cell_roundtrip, C05_coordinates, C05_frame, C05_isInMap_refuted, C05_isInMap_unit, C05_origin_refuted, C05_origin_unrotated, C05_set_moves_origin_refuted, C05_square, C05_subpixel_refuted, C05_subpixel_unrotated, C17_bounded_exact, C21_astar_goal_cell, C21_dijkstra_shortest, C21_optimal, C25_delta_euclid, C29_own_heading_refuted, C29_pose_directional, C29_pose_separate, C29_pose_statespace, C32_L1_eight_refuted, C32_admissible, C32_consistent, C32_nonneg, C32_norms, C32_path_bound, C33_border_refuted, C33_padding, C33_padding_cells, C33_padding_refuted, C33_table, C33_terminates, C34_length, C34_shortest_refuted, C34_valid, C35_after_switch_refuted, C35_dynamic_switch, C35_first_move, C35_forward_only_refuted, C35_halfsteps_refuted, C35_increment, C35_limit, C35_nonholonomic_after, C35_nonholonomic_switch, C35_side, C35_switch, C35_trip_limit, C36_inverse, C36_nonholonomic, C36_nonholonomic_moves, C40_off_map_refuted, C40_weight, C41_on_arc, C41_ring_near, C42_arc, C42_arc_unique, C42_empty_refuted, C42_overshoot_refuted, C43_footPoint, C43_line_of_pose, C43_nearest, C43_on_segment, C43_on_segment_refuted, C43_parallel, C43_relative_position, C43_signed_distance, C43_toPoints, C43_tolerance_refuted, C44_constructor, C44_createArcFrom, C44_createArcFrom_refuted, C44_createArcTo, C44_end, C44_normalise, C44_setArc, C44_setArcAngle, C44_setArc_refuted, C44_setEndAngle, C44_setStartAngle, C44_toPoints_centred, C44_toPoses, C44_toPoses_tail, C45_arc_extent_refuted, C45_circles, C45_circles_defined, C45_circles_single_complete, C45_contact_end_refuted, C45_contact_refuted, C45_line_circle, C45_line_circle_contact, C45_stale_refuted, C46_tangentCircles, C46_tangentInnerCircles, C47_before_init, C47_exhausted, C47_gain_refuted, C47_goals, C47_new, C47_zero_refuted, C48_distinct, C48_goals, C48_kept, C48_new, C52_isEqual, C52_metric, C52_normalize, C52_ortho, C52_pose_ops, C52_resize, C52_rotate_compose, C52_rotate_isometry, C52_rotate_linear, C53_corners, C53_outside, C53_samples_inside, C53_wrap, C57_nonholonomic, C67_file, C67_mirrored_refuted, C67_opposite_refuted, C67_rigid, C67_unset_refuted, C67_value, C74_own_test, C74_own_test_calls, C74_own_test_exhaustive, C74_own_test_least, C75_own_test, C78_work, C79_candidates, C79_complete, C79_exact_goal, C79_goal_cell, C80_calls, C80_candidates, C80_configuration_ignored, C80_exhaustive, C80_least, C80_path, C80_same, C81_curve, C81_nothing, C81_stray_refuted, C81_thin_refuted, C82_candidates_refuted, C82_setMap_test, C82_test_candidates.
* **ClassicalDedekindReals.sig_forall_dec, ClassicalDedekindReals.sig_not_dec, Classical_Prop.classic, FunctionalExtensionality.functional_extensionality_dep** (184 theorems): C03_half_cell_ieee, C03_roundtrip_ieee, C04_border_ieee, C04_inside_ieee, C04_left_ieee_refuted, C05_answer_ieee, C05_centre_ieee, C05_frame_ieee, C05_origin_ieee, C05_roundtrip_ieee, C05_square_ieee, C17_bounded_ieee, C17_bounded_ieee_numbers, C17_cheapest_refuted, C20_complete_ieee, C21_astar_ieee, C21_cheapest_in_region_refuted, C21_dijkstra_ieee, C21_optimal_ieee, C32_L2_over_refuted, C32_admissible_ieee, C33_ieee, C34_valid_ieee, C36_bicycle, C36_bicycle_dynamic, C36_cost, C36_cost_dynamic, C36_trip_cost, C38_abort, C38_best, C38_candidate, C38_collision_free, C38_keeps_patterns, C38_limit_refuted, C38_never, C38_stateless, C41_off_arc_refuted, C41_truncation_refuted, C41_weight, C42_points, C43_isIdentical_refuted, C43_toPoses, C43_toPoses_start, C43_toPoses_start_refuted, C44_history, C44_isPointOnArc_off_seam, C44_isPointOnArc_refuted, C44_isPointOnArc_sound, C44_nearest, C44_normalise_ieee_refuted, C44_toPoints_refuted, C45_arcs, C46_from_small_refuted, C46_helper_four, C46_helper_line, C46_helper_three, C46_inner_arcs, C46_inner_arcs_lost_refuted, C46_inner_contact_heading, C46_inner_touch, C46_outer_contact_heading, C46_path_between_circles, C46_path_between_exists, C46_path_circle_to_line, C46_path_exists, C46_path_line_to_circle, C46_path_shape, C46_tangentArc_complete, C46_tangentArc_from_line, C46_tangentArc_to_line, C49_best, C49_expensive_refuted, C49_outside, C50_ieee, C50_ieee_refuted, C51_inverse_ieee, C51_inverse_map_ieee, C52_polar, C52_rotate_angle, C53_blind_ahead_refuted, C53_free_meaning, C53_index, C53_noinfo_meaning, C53_occupied_meaning, C53_orientation_refuted, C53_wrap_ieee_refuted, C55_line, C55_line_refuted, C56_drive, C56_jump_refuted, C56_overlap_refuted, C57_dynamic, C57_template_complete, C57_template_sound, C59_dynamic_any_order, C59_dynamic_least_first, C59_dynamic_no_repeat, C59_queue_refuted, C59_template_any_order, C59_template_least_first, C60_dynamic_goal, C60_heading_refuted, C60_template_goal, C61_dynamic_ends, C61_exception_refuted, C61_template_ends, C62_dynamic_cells, C62_template_cells, C62_unchecked, C62_walls_refuted, C63_dynamic_start, C63_heading_refuted, C63_occupied_start_refuted, C63_template_start, C66_backward_refuted, C66_complete, C66_defined, C66_first, C66_gate_defined, C66_regular, C66_schedule, C66_stale_refuted, C66_success, C67_layer_refuted, C68_nearest_ieee, C68_shortest_ieee, C70_complete, C70_fewest_steps, C70_not_shortest_refuted, C71_angles, C71_bots, C71_circle, C71_clock, C71_defined, C71_inside, C71_move, C71_picture, C71_range, C71_reset_refuted, C71_same_second_refuted, C71_settles, C71_steering, C71_straight, C74_ends, C74_exhaustive, C74_oversearch, C74_oversearch_adds, C74_oversearch_all, C74_oversearch_least, C74_own_test_ends, C74_plain, C74_window, C75_defined, C75_oversearch, C76_dynamic_empty, C76_template_empty, C77_over, C77_taxi, C77_taxi_shortest_refuted, C77_weighted, C78_once_refuted, C78_touched_refuted, C78_work_ieee, C79_ieee, C79_twice_refuted, C79_window_refuted, C82_again, C82_candidates, C82_occupied_goal, C82_same, C82_setMap_pose, C83_added, C83_candidates, C83_ends, C83_first, C83_path, C83_test, C83_test_candidates, C83_test_ends, C84_ends_ieee, C84_same_start_ieee, C85_close, C85_far_refuted, C85_roundtrip.
<!-- assumptions:end -->

## Modelled code

| code | model | not modelled / simplified |
|---|---|---|
| I/common/SimpleGridMap2d.h, S/common/SimpleGridMap2d.cpp | GridMap.v, GridGeom.v (exact), GridGeomIeee.v (binary64) | log output |
| I/common/RotatedGridMap2d.h, S/common/MapMath.cpp | GridGeom.v, GridGeomIeee.v (MapMath in binary64), RotGeomIeee.v (rotated map in binary64) | `pos2map(int&)`, `NORMALIZE_0_2PI` (declared, never defined) |
| I,S/common/GridMap2d (areas, circle raster) | Areas.v | `CircleArea` drawing colours |
| I,S/common/Bresenham2d | Bresenham.v | - |
| I,S/common/CollisionGridMap2d | CollisionMap.v | - |
| I,S/common/Point2d, Pose2d; TmpMath.hpp | GeomR.v, RoundModel.v | stream output |
| S/a_star/* | AStarOld.v, AStarFloat.v | node storage is a finite map, the open list a sorted list with the code's insert order |
| I/generic/SearchAlgorithm.hpp, Common.hpp, Algorithms.hpp | GenericSearch.v, DirectSearch.v, GenericReuse.v, GenericCand.v, VehicleSearch.v, VehicleModel.v | mutexes; `GenericDynSearchAlgorithm` (does not compile with the current base class) |
| I/generic/NodeManager.hpp, Intermission.hpp | NodeManagers.v, OpenPolicies.v | the body of the callback |
| I/generic/DirectNeighborhood.hpp | DirectSearch.v | - |
| I/generic/Heuristics.hpp, S/ReedsShepp/CostPrecomputation.cpp | Heuristics.v, OverModel.v, DistTransModel.v, PrecompModel.v | the numbers of the table file are written exactly; drawing and arguments of the tool |
| I/generic/MapManager.hpp | MapManagers.v, SlotModel.v, VehicleModel.v | node constructors are a slot's initial contents |
| I/generic/DistanceTransformation.hpp | DistTransModel.v | - |
| I/generic/SteeringNeighborhood.hpp, DynamicSteeringNeighborhood.h, NonHolonomicNeighborhood.hpp, SteeringNode.hpp | SteerModel.v, VehicleModel.v | NonHolonomicNeighborhood's reverse/oversearch hooks (do not compile with the current search) |
| S/ReedsShepp/CurveGenerator.cpp, Curve.cpp, CircleSegment.cpp, LineSegment.cpp, CurveSegment.cpp, GeometryHelper.cpp | RSParse.v, RSModel.v | colours and names of curves |
| S/geometry/line.cpp, circle.cpp, intersector.cpp, tangentor.cpp, I/geometry/shape.h | LineModel.v, CircleModel.v, IntersectModel.v | line/line intersection (external `segmentIntersection`) |
| S/sampling/* | SamplingModel.v | - |
| I/evaluation/MapGenerators.hpp | MazeModel.v, HilbertModel.v | cv::rectangle fills the pixels of its rectangle; rand() is any sequence |
| I/generic/ReedsSheppExpansion.hpp, and hasPoseBeenReached/backtrack as used by it | ExpansionModel.v | real arithmetic (1.3f, 0.15f as their binary fractions); the backward generator, which is never used, is left out |
| S/evaluation/evaluator.cpp, I/evaluation/evaluator.h: map, start, goal, files, callbacks | EvaluatorModel.v | drawing, search, video, focus circle left out; map generators a parameter |
| I/evaluation/evaluator.h: BFSNeighborhood, BreadthFirst | BfsModel.v | costs in binary64 |
| S/common/path4ws_simulator.cpp, I/common/path4ws_simulator.h | Sim4wsModel.v | exact reals for float; rand() an arbitrary function of seed and position |
| I/evaluation/Renderer.hpp (maps, search space grid, markers, focus), Util.hpp; video frames of S/evaluation/evaluator.cpp | RenderModel.v | a map manager without padding; colours of OpenCV lines by contract; the heading at which estimates are drawn (`offset_`, never initialised) is in the parameter `heur` |
| I/generic/SearchAlgorithm.hpp with a steering neighbourhood: oversearch, callback, goal test, getPathCandidates | VehicleTest.v, VehicleFind.v | as the plain vehicle search; a goal test adds only the node it is asked about; no analytic expansion |
| SearchAlgorithm.hpp: expansions, multi_expansions, touched, updates and their getters | GenericCount.v, CountSearch.v | counters as unbounded integers |
| SearchAlgorithm.hpp: oversearch (404-445), getPathCandidates (697-710) | CandModel.v | the candidate queue as a function giving the order of its elements |
| SearchAlgorithm.hpp: findPathWithStartConfiguration (283-297), findPathMapNode (359-370), initStartNode (495-524) | StartConfig.v | as for VehicleFind.v |
| S/ReedsShepp/CurveRenderer.cpp, CurveRenderer.h | CurveRender.v | the calls of OpenCV, not their pixels; snapshot_in_new_window and display_overlay left out |
| SearchAlgorithm.hpp with DynamicDirectionalStateSpaceManager, several searches and maps on one object | VehicleReuse.v | heuristic_goal by value; counters left out |
| visualizeSearchSpaceGraph, arrows, texts, the event loop in S/evaluation/evaluator.cpp, CurveTest.cpp, UnitTest.cpp, tests | - | drawing, argument parsing, demos |

## Findings

Every `_refuted` theorem is a finding; the manifest notes describe them. The ones
with the widest effect on users:

* Searches are not reusable without `setMap` (C22); the second search of an
  object sees the nodes of the first.
* `isFree(line)` answers "free" when an end point is off the map (C12), and the
  vehicle search does the same for its 32-cell padding (C31, C62): paths through walls.
* Iterating a circle or line area skips the first cell and reads one past the end (C07).
* `isInMap(point)` has no lower bound (C04).
* Occupied or outside start/goal: empty path or an escaping exception instead of the
  documented ones (C24, C63).
* The collision table of `CollisionGridMap2d` belongs to another orientation (C53).
* Reeds-Shepp patterns with equal neighbouring circles give a heading jump (C56); the
  weight of an arc is refused if the whole circle leaves the map (C41).
* The obstacle heuristic ignores ways along the border (C33) and is never set up by
  the searches; the distance transformation returns a path elsewhere for an
  unreachable goal (C34).

## Plan per property

* **C01** Grid map cells are independent storage: model 32-bit index and byte vector with option results; invariant over setValue histories.
* **C02** Every cell has exactly one classification: decision rule over Z thresholds; case analysis.
* **C03** Cell to point to cell round trip: R model of conversions with floor; lra + floor lemmas; the same functions over Flocq binary64 with error bounds of the four roundings.
* **C04** A point reported inside the map and not left of or below it has a cell in the map: same model, truncating cast with UB for negatives; expected `_refuted` + restricted theorem; binary64: monotonicity of rounding at the integers.
* **C05** Rotated map conversions between cells and points are inverse: R model with rotation matrix algebra (cos^2+sin^2=1); in binary64 (RotGeomIeee.v) a forward error analysis: each conversion is off by less than a thousandth of a cell (PropRotIeee.v).
* **C06** Queries and writes over a RobotArea concern exactly its in-map cells: areas as cell iterators; fold over iterator outputs.
* **C07** Iterating a robot area visits exactly its cells; circle and line areas lose the first: iterator state machine with out-of-bounds as None.
* **C08** Rasterised circle covers the disc and hardly more: midpoint circle over Z with decision-variable invariant.
* **C09** Bresenham iteration terminates at the end cell after max(|dx|,|dy|) steps: Z state machine, error-term invariant, induction on remaining steps.
* **C10** Bresenham cells are 8-connected, monotone and stay in the map: same invariant.
* **C11** Bresenham cells follow the ideal line: same invariant (|2*err| bound).
* **C12** Line freedom check answers for the whole segment between in-map end points: composition of Bresenham and map; refuted for out-of-map end points.
* **C13** AStar::planPath returns a valid path: open list as sorted list, nodes as finite map, arbitrary cost type; invariant over the main loop.
* **C14** AStar::planPath is complete: measure = unvisited nodes; closed-set argument.
* **C15** AStar planning is independent of earlier searches: simulation between reused and fresh node store.
* **C16** AStar never leaves its node storage: same invariant; UB outcome shown unreachable.
* **C17** AStar's path is at most about one unit per step longer than the cheapest: refutation of optimality on a concrete map; search invariant over node values with error bounds for abstract operations (AStarRound.v), instantiated with Flocq's binary32/binary64 (AStarIeee.v).
* **C18** AStar::setNewMap makes any later search valid for the new map: history model of sizes; refuted for in-place resize.
* **C19** Generic search returns only connected, collision-free paths: generic search with abstract costs and arbitrary pop policy.
* **C20** Generic search terminates and is complete: well-founded measure / closed-set argument.
* **C21** Generic A* with an admissible heuristic returns a cheapest path: classical A* argument over exact ordered costs (GenericOpt.v), and over rounded ones with a relative error per operation (GenericRound.v), instantiated with binary64 (GenericIeee.v).
* **C22** setMap makes a generic search object as good as new: simulation after setMap; refutation without it.
* **C23** Reversed search yields the path in start to goal order: list reversal over C19.
* **C24** findPath reports bad start or goal: exception outcomes as constructors.
* **C25** Neighbour offsets are exactly the 4 or 8 neighbours, each once: finite offsets over Z.
* **C26** Node marks behave as independent flags: bit operations on N.
* **C27** Open-list managers return what they promise: list model of deque/set.
* **C28** Intermission callback is called at the configured rate: counter state machine.
* **C29** State-space index maps are injective and in range: index arithmetic over Z, angle slot over R.
* **C30** Dynamic state space finds the chunk of every cell off its first row and column: chunk arithmetic over Z.
* **C31** Exact meaning of the line checks of the dynamic state space: composition with Bresenham model.
* **C32** Heuristics never overestimate: R norms along paths.
* **C33** Obstacle distance heuristic is the true holonomic distance inside the border: queue relaxation fixpoint.
* **C34** Distance transformation path is valid and nearly shortest: two-pass relaxation fixpoint.
* **C35** Steering moves respect the steering limit and the straight-switch rule: step relation over Z-indexed steering.
* **C36** Steering moves are arcs of the modelled vehicle: R trigonometry.
* **C37** Curve pattern parser accepts exactly the pattern language: parser over ascii lists vs. independent grammar.
* **C38** Reeds-Shepp find_path returns the cheapest valid candidate: fold over candidates.
* **C39** Iterating a curve yields all points of its segments in order: iterator state machine.
* **C40** Line segment weight detects every obstacle on the map: weight loop over cells.
* **C41** Circle segment weight detects every obstacle on the rasterised arc: midpoint circle with angle test.
* **C42** Arc length and direction of a circle segment: R case analysis.
* **C43** Line geometry laws: R vector algebra.
* **C44** Circle/arc geometry laws: R; loops by well-founded counts.
* **C45** Intersector returns exactly the intersection points, up to the tolerance: R algebra.
* **C46** Tangents touch the circles they were asked for: R algebra.
* **C47** Centroid goal region produces the documented goals: counter state machine.
* **C48** Ring goal region covers the ring evenly: counter state machine.
* **C49** Sampling planner returns the cheapest goal's path: fold over goals.
* **C50** Rounding helper rounds to nearest, half away from zero: R + binary64 witness.
* **C51** pos2map and map2pos are inverse: R rotation algebra; binary64 error bounds.
* **C52** Point algebra: R vector algebra.
* **C53** Exact meaning of the collision map's queries with orientation: areas over Z.
* **C54** Oversearch and goal candidates return the best candidate found: loop invariant of candidate bookkeeping.
* **C55** Way-points of a curve are evenly spaced on the segment: R; counters of the iterators.
* **C56** A Reeds-Shepp curve is a continuous drive from start to goal: R trigonometry over the tangent construction.
* **C57** Vehicle goal test accepts exactly the poses near the goal: R case analysis, angles modulo full turns.
* **C58** Pose list region delivers the listed poses: counter state machine.
* **C59** A vehicle search returns a path the vehicle can drive: generic search over slots with contents, invariant of the predecessor chain.
* **C60** A vehicle search ends near the requested pose: the accepting goal test of the last pose, composed with C57.
* **C61** A vehicle search ends with a result: finite slots and finitely many cost sums give a well-founded measure.
* **C62** A vehicle path avoids obstacles at the cells that are looked at: composition with the line checks (C31) and the Bresenham model.
* **C63** A vehicle search starts at the requested cell and only between unoccupied cells: model of the preparation of start and goal nodes.
* **C64** The maze generator makes perfect mazes: small-step machine over an arbitrary random stream; depth first search invariant; trees by induction on their growth; pixels by box arithmetic.
* **C65** The space filling curve visits every room of its square once: induction on the level; pixels as in C64.
* **C66** Analytic expansion is tried regularly and only succeeds with a drivable, free curve: invariant over all histories of the shared instance for the schedule; success by composing C38, C39, C42, C56.
* **C67** The precomputed heuristic returns the mirrored entry of its table: writer and reader as list functions over R; index arithmetic with truncation, rotation algebra.
* **C68** A search with the caller's own goal test: the loop of GenericSearch.v with a state machine as goal test and a log of its calls; validity and completeness by the invariants of C19/C20, optimality by the Dijkstra invariant (a closed node's distance is below every walk to it) for any monotone addition, instantiated with binary64.
* **C69** The evaluation tool keeps map, picture and files in step: the Evaluator's members, its two files and its callbacks as a state machine (EvaluatorModel.v); an invariant over event histories (picture and map agree, picture on disk, poses on disk unless dragging), and a case analysis of the constructor on every disk content, hence on the disk after every prefix of an event's writes.
* **C70** The breadth-first search takes the fewest steps: the search without heuristic is step for step the search with a goal test that recognises the goal region (PropBfs.v, Sim), so the optimality invariant of C68 applies in any monotone arithmetic; the sums of k equal binary64 steps are strictly increasing in k up to 2^32.
* **C71** The four-wheel-steering simulator: robots, clock, step counter and picture as a state machine over step, reset and setNumBots with an arbitrary random sequence per second (Sim4wsModel.v); invariants over histories, and a closed form of the positions for constant steering.
* **C72** The evaluation tool's picture shows every cell at its place: pictures as functions on pixels, paint operations; folds over cells with an invariant per pixel.
* **C73** The frames of the evaluation tool's video: counter machine; induction over the number of pictures.
* **C74** A vehicle search with oversearch, a candidate callback or the caller's own goal test: the vehicle search with an abstract, stateful goal test that adds weights; log of its calls; the invariants of C59-C61 for any test, then the test of findPath(from, to). Not modelled: `heuristic_goal` keeps its value after a search with a goal test, so a later findPath(from, to) with an occupied goal cell uses a goal that may no longer exist.
* **C75** getPathCandidates after a vehicle search: each candidate is a closed node, closed nodes have a trace to the start; permutation of the log.
* **C76** An empty result of a vehicle search: open nodes are in the open list, closed nodes are in the log of the goal test; the offers of an expanded node are met; the open list is empty at the end.
* **C77** Overestimating heuristics: on every way some node waits in the open list with (almost) its distance along that way, so the accepted node's total cost is at most the largest estimate along it; x + d^1.2 <= (x + d)^1.2 for lengths of at least one cell.
* **C78** Statistics: the search with its counters put back in (GenericCount.v; erasing them gives GenericSearch.v), an invariant relating them to the list of goal-tested nodes; under consistency closed nodes never become cheaper, so the offers of every expanded node are taken at most once (GenericWork.v).
* **C79** Oversearch: under consistency nodes are expanded in the order of their total cost, every expanded node with a shortest distance; so until a total exceeds the window every accepted cell within it has been expanded (GenericWindow.v); backtracking gives the candidates (CandModel.v, PropCand.v).
* **C80** findPathWithStartConfiguration: initStartNode and initStartPose leave the same nodes, as depth is 0 in every new node (induction over the start nodes); the rest by C74 and C75 (StartConfig.v, PropStart.v).
* **C81** CurveRenderer: the loops over cells as folds over pairs, one pixel at a time (PropRender.v); the loop over poses by C39, for any iteration state; truncation by Flocq (CurveRender.v, PropCurveRender.v).
* **C82** the search started on any nodes (VehicleReuse.v). Invariant of the first search: the start nodes keep distance 0 and have no predecessor, and once both are expanded all their neighbours have a distance; as this only falls, no neighbour is put into the open list again (VehicleReuseProofs.v). After setMap: the same loop, first_candidate_weight is read only with candidates (PropVehicleReuse.v).
* **C83** the searches of VehicleReuse.v from every state that any history leaves. Invariant of the nodes between calls: each pose lies in the cell of its node, each distance is a sum of move costs, no node is its own predecessor. During a call: the nodes reached by this call (a set that grows) have predecessors among themselves and among closed ones, with distances that fall along them; stale nodes are overwritten only with smaller distances, so the pair (nodes never seen, ranks of the distances) falls (VehicleStale.v, PropVehicleStale.v).
* **C84** findPath of DirectSearch.v from every state that calls leave. Invariant of the nodes between calls (fit): nodes seen lie in the map with a distance that occurs, no node is its own predecessor; distances of seen nodes never grow (lower). During a call: the nodes put into the open list by this call have predecessors among themselves, with distances that fall along them, so backtracking ends at a start node; the vector of distances falls. A start node that was expanded leaves all its neighbours seen with a distance not above one step (sealed), which stays so; a call from it then pushes nothing (GenericProofs.v, PropGridUsed.v).
* **C85** The binary64 centre (GridGeomIeee.v) converted with Flocq's binary_normalize to binary32 (to_f32 of AStarFloat.v). Relative error 2^-24 of the conversion added to the error of the centre; a double within a quarter of a cell of the centre is converted back to the cell. UTM counterexample by computation (PropCellFloat.v).
