{
 "claims": [
  {
   "property": "C01",
   "status": "proved",
   "theorems": [
    "C01_make_lowest_terms",
    "C01_history_lowest_terms",
    "C01_equality_decides_value",
    "C01_make_defined",
    "C01_arithmetic_defined",
    "C01_int_min_undefined_refuted",
    "C01_zero_denominator_refuted"
   ],
   "note": "Lowest terms, equality and overflow-freedom under a size bound; INT64_MIN and zero denominators are recorded as refutations."
  },
  {
   "property": "C02",
   "status": "proved",
   "theorems": [
    "C02_history_exact",
    "C02_make_exact",
    "C02_mixed_exact",
    "C02_queries"
   ],
   "note": "Exact values for every history of operations on the 64-bit model."
  },
  {
   "property": "C03",
   "status": "proved",
   "theorems": [
    "C03_decimal_exact",
    "C03_decimal_accepted",
    "C03_negative_below_one_refuted",
    "C03_fraction_exact",
    "C03_fraction_accepted",
    "C03_fraction_out_of_range_rejected",
    "C03_trailing_text_ignored_refuted",
    "C03_malformed_accepted_refuted",
    "C03_long_fraction_undefined_refuted"
   ],
   "note": "Exact value of decimals and fractions, acceptance up to 18 digits; the sign loss of -0.F, ignored trailing text and overflow of long fractions are recorded as refutations."
  },
  {
   "property": "C04",
   "status": "proved",
   "theorems": [
    "C04_print_parse"
   ],
   "note": "Print then parse is the identity on reduced rationals."
  },
  {
   "property": "C05",
   "status": "proved",
   "theorems": [
    "C05_tokenize",
    "C05_pieces_unique",
    "C05_tokenize_empty_refuted",
    "C05_split_last",
    "C05_trim",
    "C05_trim_right",
    "C05_white_space",
    "C05_remove_white_space",
    "C05_num_right",
    "C05_pad"
   ],
   "note": "String helpers against list specifications."
  },
  {
   "property": "C06",
   "status": "proved",
   "theorems": [
    "C06_ball_round_trip",
    "C06_penalty_force_not_restored_refuted"
   ],
   "note": "All ball states; the penalty force exception is proved too."
  },
  {
   "property": "C07",
   "status": "proved",
   "theorems": [
    "C07_rb2d_round_trip"
   ],
   "note": "All 2D rigid body states."
  },
  {
   "property": "C08",
   "status": "proved",
   "theorems": [
    "C08_rb3d_round_trip",
    "C08_staple_terminates"
   ],
   "note": "All 3D rigid body states; staples end the program when written."
  },
  {
   "property": "C09",
   "status": "proved",
   "theorems": [
    "C09_ball_file_truncated",
    "C09_rb2d_file_truncated",
    "C09_rb3d_file_truncated",
    "C09_ball_truncated",
    "C09_rb2d_truncated",
    "C09_rb3d_truncated",
    "C09_ball_injective",
    "C09_rb2d_injective",
    "C09_rb3d_injective"
   ],
   "note": "Simulation part and whole files, for every cut point. Running past the end is undefined behaviour in the release build, not a reported error."
  },
  {
   "property": "C10",
   "status": "proved",
   "theorems": [
    "C10_ball_known_resumes",
    "C10_ball_unknown_terminates",
    "C10_ball_unwritable_terminates",
    "C10_rb2d_known_resumes",
    "C10_rb2d_unknown_terminates",
    "C10_rb2d_unwritable_terminates",
    "C10_rb3d_known_resumes",
    "C10_rb3d_unknown_terminates",
    "C10_rb3d_unwritable_terminates",
    "C10_not_resumable_refuted"
   ],
   "note": "Known configurations round-trip, all others end the program when read or when written."
  },
  {
   "property": "C11",
   "status": "proved",
   "theorems": [
    "C11_ball_resume",
    "C11_rb2d_resume",
    "C11_rb3d_resume",
    "C11_final_step_snapshot_refuted"
   ],
   "note": "For all three tools, with arbitrary integrators and end-time tests. Exception proved as C11_final_step_snapshot_refuted: the snapshot written in the extra step taken when forces are output."
  },
  {
   "property": "C12",
   "status": "proved",
   "theorems": [
    "C12_schedule"
   ],
   "note": "Arbitrary integrators and end-time test. The hypothesis iteration = frame * steps_per_save holds at start (0 = 0) and after resuming."
  },
  {
   "property": "C13",
   "status": "proved",
   "theorems": [
    "C13_names_sort",
    "C13_names_distinct",
    "C13_force_names_distinct",
    "C13_frame_number",
    "C13_digits",
    "C13_width_suffices",
    "C13_no_end_time_refuted",
    "C13_steps_per_save_sound",
    "C13_steps_per_save_complete"
   ],
   "note": "Widths, order, distinctness. Times are exact rationals. C13_no_end_time_refuted: without an end time the width computation is undefined."
  },
  {
   "property": "C14",
   "status": "proved",
   "theorems": [
    "C14_grid2_complete_binary64",
    "C14_grid3_complete_binary64",
    "C14_grid2_complete",
    "C14_grid3_complete"
   ],
   "note": "2D and 3D grids, both in exact arithmetic and in IEEE binary64 (all roundings, key wrap-around included); lists of at most 2^32 boxes"
  },
  {
   "property": "C15",
   "status": "proved",
   "theorems": [
    "C15_grid2_exact",
    "C15_grid3_exact",
    "C15_all_pairs2",
    "C15_all_pairs3",
    "C15_trial_exact",
    "C15_grid2_sound_binary64",
    "C15_grid3_sound_binary64",
    "C15_key_wrap_self_pair_refuted",
    "C15_rounding_self_pair_refuted",
    "C15_no_boxes_refuted"
   ],
   "note": "exact whenever the scene needs at most 2^32 cells; refuted otherwise (a box paired with itself after key wrap, or when the margins are rounded away; empty list undefined)"
  },
  {
   "property": "C16",
   "status": "proved",
   "theorems": [
    "C16_ccd_first_touch",
    "C16_no_division_by_zero",
    "C16_active_set_exact"
   ],
   "note": "ballBallCCDCollisionHappens over the reals: reports a collision exactly when the balls touch at some time in [0,1], with the first such time; no division by zero; combined with the grid, the ball-ball active set is exactly the touching pairs. Rounding is not modelled."
  },
  {
   "property": "C17",
   "status": "proved",
   "theorems": [
    "C17_ball_impact",
    "C17_sphere_impact",
    "C17_ball_gauss_seidel",
    "C17_sphere_gauss_seidel",
    "C17_ball_terminates",
    "C17_sphere_terminates",
    "C17_ball_terminates_inelastic",
    "C17_zero_tolerance_refuted",
    "C17_warm_start_refuted",
    "C17_ball_obstacle_refuted"
   ],
   "note": "Single impacts and Gauss-Seidel with cold start, any number of balls/spheres and contacts; termination for positive tolerance given a feasible velocity. Refuted: tolerance 0, warm start, ball against plane or drum."
  },
  {
   "property": "C18",
   "status": "proved",
   "theorems": [
    "C18_ball",
    "C18_rb2",
    "C18_rb3",
    "C18_flag"
   ],
   "note": "Any number of impulses, along any columns the impact, friction and coupled solvers can use, from contacts that report momentum conservation; the report itself is characterised."
  },
  {
   "property": "C19",
   "status": "proved",
   "theorems": [
    "C19_ball_impact",
    "C19_rb2_impact",
    "C19_rb2_friction",
    "C19_rb3_impact",
    "C19_rb3_friction",
    "C19_flag"
   ],
   "note": "Contacts made at the same configuration; which contacts advertise conservation is characterised. 3D inertia blocks are arbitrary inverse pairs. The sphere-body contact point is assumed to lie on the normal through the sphere centre."
  },
  {
   "property": "C20",
   "status": "proved",
   "theorems": [
    "C20_gr",
    "C20_gr_returns",
    "C20_grr",
    "C20_grr_blend",
    "C20_one_coefficient",
    "C20_lcp_step",
    "C20_ball_mass",
    "C20_rb2_mass",
    "C20_rb3_mass"
   ],
   "note": "Reflection operators over an arbitrary mass matrix (instances for the three programs), arbitrary inner operator; feasibility on return for any inner operator; energy and termination for inner operators that solve their complementarity problems."
  },
  {
   "property": "C21",
   "status": "proved",
   "theorems": [
    "C21_ball_cache_is_a_map",
    "C21_rb2_cache_is_a_map",
    "C21_rb3_cache_is_a_map",
    "C21_unsupported",
    "C21_ball_sorted",
    "C21_rb2_sorted",
    "C21_rb3_sorted"
   ],
   "note": "all histories of store/clear/look-up calls on the three caches, proved through one refinement to a list of stored contacts; also: kinds the caches do not know end the program, and the maps stay strictly sorted as the snapshot format needs. Pair contacts are assumed listed lower index first, as collision detection reports them (asserted in debug builds)."
  },
  {
   "property": "C22",
   "status": "proved",
   "theorems": [
    "C22_impact_map",
    "C22_normal_mode",
    "C22_planar_friction_mode",
    "C22_spatial_friction_mode",
    "C22_from_two_vectors",
    "C22_cold_start",
    "C22_unsupported_contacts",
    "C22_two_point_contact_refuted",
    "C22_deleted_body_refuted"
   ],
   "note": "every run of steps of ImpactMap and of the friction maps in modes NORMAL and NORMAL_AND_FRICTION (2D and 3D, Eigen's FromTwoVectors modelled over the reals) starts each contact from the impulse the previous step computed for it; refuted where two contacts share a key (two-point box contacts) and after a script deletes a body. Unsupported contact kinds end the program."
  },
  {
   "property": "C23",
   "status": "proved",
   "theorems": [
    "C23_fixed",
    "C23_fixed_defined_refuted",
    "C23_sliding",
    "C23_sliding_b",
    "C23_sliding_round_trip",
    "C23_sliding_distance",
    "C23_velocity_of_image",
    "C23_enforce_torus",
    "C23_enforce_sliding",
    "C23_velocity_turned_refuted",
    "C23_box_test2",
    "C23_box_test3",
    "C23_space",
    "C23_enforce_space",
    "C23_flipped_normal_refuted"
   ],
   "note": "2D fixed and sliding portals and 3D portals over exact reals; fixed portals assume hardware double-to-int conversion (formally undefined: C23_fixed_defined_refuted). Velocities are not turned for planes that do not face each other (refuted) and a 3D normal multiplier of -1 puts bodies behind the other plane (refuted). Enforcement for several sliding portals at once is not proved."
  },
  {
   "property": "C24",
   "status": "proved",
   "theorems": [
    "C24_update",
    "C24_history",
    "C24_all_portals",
    "C24_unbounded_refuted",
    "C24_too_late_refuted"
   ],
   "note": "Displacement within bounds and function of time only; undefined without bounds and after 2^31 periods."
  },
  {
   "property": "C25",
   "status": "proved",
   "theorems": [
    "C25_symmetric",
    "C25_order",
    "C25_first_per_pair",
    "C25_second_portal_refuted"
   ],
   "note": "Order, symmetry and first-per-pair behaviour of the set of teleported contacts; the second contact of a pair is lost (refuted)."
  },
  {
   "property": "C26",
   "status": "proved",
   "theorems": [
    "C26_ball_verlet",
    "C26_ball_euler",
    "C26_rb2_verlet",
    "C26_rb2_euler",
    "C26_fixed_ball_refuted",
    "C26_rb3_gravity"
   ],
   "note": "Any number of steps, any number of bodies; the ball 'fixed' flag having no effect is recorded as C26_fixed_ball_refuted. The 3D maps are under C32/C33."
  },
  {
   "property": "C27",
   "status": "proved",
   "theorems": [
    "C27_ball_verlet_reversible",
    "C27_rb2_verlet_reversible",
    "C27_force_defined",
    "C27_ball_euler_momentum",
    "C27_ball_verlet_momentum",
    "C27_ball_angular_momentum",
    "C27_ball_euler_torque"
   ],
   "note": "k-step reversibility and momentum/angular momentum laws for gravity plus penalty forces."
  },
  {
   "property": "C28",
   "status": "proved",
   "theorems": [
    "C28_remove",
    "C28_naming_twice",
    "C28_add",
    "C28_history",
    "C28_completed_history",
    "C28_direct_call_unchecked",
    "C28_nan_body_refuted"
   ],
   "note": "removeBodies/addBody on the arrays themselves, refinement to a list of bodies for single calls and any script history; refuted for bodies with a NaN x coordinate (deleted unnamed) and for direct calls with an index past the end"
  },
  {
   "property": "C29",
   "status": "proved",
   "theorems": [
    "C29_unused_geometry",
    "C29_geometry_in_use_refuted"
   ],
   "note": "removeGeometry with its index map; in-use deletion proved to read an unwritten index"
  },
  {
   "property": "C30",
   "status": "proved",
   "theorems": [
    "C30_valid_index",
    "C30_invalid_index_exits",
    "C30_index_equal_to_count_refuted",
    "C30_wrap_refuted",
    "C30_axis_checked",
    "C30_scripts_safe"
   ],
   "note": "all sixteen index-taking calls of the three scripting modules; the violations at index == count and beyond 2^32 are proved as refutations"
  },
  {
   "property": "C31",
   "status": "proved",
   "theorems": [
    "C31_set_state",
    "C31_recomputed",
    "C31_inverse",
    "C31_symmetric",
    "C31_kinetic_energy_positive",
    "C31_steps",
    "C31_planar"
   ],
   "note": "Mass arrays of the 3D state (body space, world space, set and recomputed) are symmetric, inverse to each other and positive for every number of bodies, and stay so over any number of steps of the three integrators; the planar diagonals too."
  },
  {
   "property": "C32",
   "status": "proved",
   "theorems": [
    "C32_split_hamiltonian",
    "C32_moser_veselov",
    "C32_quaternion_round_trip",
    "C32_exponential_map",
    "C32_decomposition_exists",
    "C32_exponential_euler",
    "C32_exponential_euler_bodies",
    "C32_steps",
    "C32_exponential_map_moves_scripted_bodies_refuted"
   ],
   "note": "Split Hamiltonian, discrete Moser-Veselov (through Eigen's quaternion conversion, all branches), the exponential map (with the polar projection by a singular value decomposition, which is shown to exist for the matrices at hand) and exponentialEuler map rotations to rotations, over any number of steps. Finding: the exponential map moves scripted bodies."
  },
  {
   "property": "C33",
   "status": "proved",
   "theorems": [
    "C33_split_hamiltonian",
    "C33_moser_veselov",
    "C33_split_step",
    "C33_split_principal_axis",
    "C33_split_reversible",
    "C33_moser_veselov_step",
    "C33_moser_veselov_equation",
    "C33_scripted_body"
   ],
   "note": "Angular and linear momentum of every free body kept over any number of split Hamiltonian and Moser-Veselov steps; principal-axis rotation exact and the split rotation time reversible; the Moser-Veselov iteration's fixed points solve the discrete equation. Finding: scripted bodies come out with momenta stored as velocities."
  },
  {
   "property": "C34",
   "status": "proved",
   "theorems": [
    "C34_circle",
    "C34_box",
    "C34_swept_circle",
    "C34_sphere",
    "C34_box3",
    "C34_mesh",
    "C34_rb2_state",
    "C34_ball_state",
    "C34_rb3_state",
    "C34_staple_refuted",
    "C34_staple",
    "C34_box_sweep_refuted",
    "C34_box_end_position",
    "C34_bounding_sphere"
   ],
   "note": "Bounding boxes of circles, planar boxes, swept circles, spheres, rotated 3D boxes, vertex lists (convex hull) and whole states of all three simulators enclose the bodies and are the smallest boxes that do; refuted for staples (thickness ignored; widened by the radius the box is the smallest) and for the planar box over its motion. Reals in place of doubles."
  },
  {
   "property": "C35",
   "status": "proved",
   "theorems": [
    "C35_exact",
    "C35_contact",
    "C35_centre_outside"
   ],
   "note": "Contact reported exactly when disc and rotated box share a point; normal is a unit outward normal of the box; with the centre outside it points along the nearest point."
  },
  {
   "property": "C36",
   "status": "proved",
   "theorems": [
    "C36_box_box"
   ],
   "note": "Exact: no contact iff disjoint, with a face normal separating; otherwise unit normal of least overlap, one or two points, each a face contact of the reference face."
  },
  {
   "property": "C37",
   "status": "proved",
   "theorems": [
    "C37_segments",
    "C37_short_segments_refuted",
    "C37_staples"
   ],
   "note": "Parameters in [0,1] and minimal distance for segments that are points or longer than the threshold; refuted for short ones; staple-staple test exact."
  },
  {
   "property": "C38",
   "status": "proved",
   "theorems": [
    "C38_in_box",
    "C38_nearest",
    "C38_box_sphere"
   ],
   "note": "Closest point is in the box and nearest; box-sphere active set exact, exits when the centre is (nearly) in the box."
  },
  {
   "property": "C39",
   "status": "proved",
   "theorems": [
    "C39_best_iterate",
    "C39_larger_limit",
    "C39_ends",
    "C39_momentum",
    "C39_projection",
    "C39_no_iterations_refuted",
    "C39_parallel_walls_refuted"
   ],
   "note": "For every projection, residual, matrix, tolerance and limit: the result is a projected point, is one of the points visited and has the least residual; status, iteration count and reported tolerance agree with it; more iterations never make it worse; the backtracking loop ends for every symmetric matrix unless the first Lipschitz estimate is zero. Findings: limit 0 gives an empty vector; a ball between parallel walls makes the estimate zero and the first step divides by it."
  },
  {
   "property": "C40",
   "status": "proved",
   "theorems": [
    "C40_min_map",
    "C40_min_map_tolerance",
    "C40_fischer_burmeister",
    "C40_equivalent",
    "C40_bound_constrained",
    "C40_bound_constrained_refuted",
    "C40_disc",
    "C40_disc_refuted"
   ],
   "note": "Min map and Fischer-Burmeister: zero exactly at complementarity, with the meaning of a tolerance and mutual bounds. Friction variants: exact set of zeros, which is the optimality condition plus one wrong case each (upper bound; impulse along the sliding direction), given as refutations."
  },
  {
   "property": "C41",
   "status": "proved",
   "theorems": [
    "C41_honest",
    "C41_best_pass",
    "C41_non_penetrating",
    "C41_friction_of_a_pass",
    "C41_contact_force",
    "C41_grr_velocity",
    "C41_grr_success_refuted",
    "C41_friction_cone_refuted"
   ],
   "note": "For arbitrary impact/friction operators (with memory) and residual: velocity = v0 + effect of returned impulses, error = residual of returned impulses, success iff within tolerance; friction from the first pass within tolerance or the best pass; final impact solve keeps non-penetration even on failure; contact forces recover impulses. Findings: one-pass GRR friction solver always reports success with error 0; final impact solve can leave friction above mu times the returned normal impulse."
  },
  {
   "property": "C42",
   "status": "proved",
   "theorems": [
    "C42_dense_vector_round_trip",
    "C42_dense_matrix_round_trip",
    "C42_sparse_round_trip",
    "C42_sparse_truncated",
    "C42_entries_unique",
    "C42_extract_columns",
    "C42_extract_out_of_range",
    "C42_symmetric",
    "C42_identity",
    "C42_identity_refuted"
   ],
   "note": "Byte round trips of dense and sparse matrices (Snap_Props) and column extraction (Sparse_Props) against a dense-matrix specification. Finding: isIdentity only inspects stored entries, so a zero matrix passes."
  },
  {
   "property": "C43",
   "status": "proved",
   "theorems": [
    "C43_push",
    "C43_history",
    "C43_bad_ball_exits",
    "C43_masses_inverse"
   ],
   "note": "pushBallBack and insertBall, single calls and any sequence"
  },
  {
   "property": "C44",
   "status": "proved",
   "theorems": [
    "C44_spatial",
    "C44_rb3",
    "C44_rb3_total",
    "C44_sphere_body_refuted",
    "C44_ball",
    "C44_rb2",
    "C44_disk_angles",
    "C44_disk",
    "C44_forcing"
   ],
   "note": "Frames of all contact classes of the three simulators, singly and assembled; friction disk directions; forcing term. Hypothesis: the contact normal is unit. A sphere against a non-sphere body ends the program (C44_sphere_body_refuted). Exact real arithmetic."
  },
  {
   "property": "C45",
   "status": "proved",
   "theorems": [
    "C45_ball_kinetic",
    "C45_rb2_kinetic",
    "C45_ball_momenta",
    "C45_rb2_momenta",
    "C45_ball_gravity_potential",
    "C45_rb2_gravity_potential",
    "C45_ball_force_is_minus_gradient",
    "C45_rb2_force_is_minus_gradient",
    "C45_ball_verlet_energy",
    "C45_ball_euler_energy",
    "C45_rb2_verlet_energy",
    "C45_rb3_kinetic",
    "C45_rb3_momentum",
    "C45_rb3_angular_momentum",
    "C45_rb3_potential",
    "C45_rb3_force"
   ],
   "note": "Planar and 3D energies, momenta and angular momenta equal the textbook sums; gravity is minus the gradient of its potential."
  },
  {
   "property": "C46",
   "status": "proved",
   "theorems": [
    "C46_step",
    "C46_run",
    "C46_iterations",
    "C46_end_of_simulation",
    "C46_polite_scripts_are_safe",
    "C46_coefficients_reach_the_solver",
    "C46_restitution_reaches_the_operator",
    "C46_masses_are_current",
    "C46_state_in_friction_hook_refuted",
    "C46_iteration_in_friction_hook_refuted"
   ],
   "note": "For arbitrary integrators, collision detection, solvers and scripts (programs over the scripting API): hook order in every step, over every run of the tools' loop, with consecutive iteration numbers and chained states; end-of-simulation hook exactly once; scripts keeping to their hook's data never dereference null. Findings: state access from a coefficient hook is a null dereference; nextIteration() is 0 there."
  },
  {
   "property": "C47",
   "status": "proved",
   "theorems": [
    "C47_ball_file_refused_by_rb2d",
    "C47_ball_file_refused_by_rb3d",
    "C47_rb2d_file_refused_by_ball",
    "C47_rb2d_file_refused_by_rb3d",
    "C47_rb3d_file_refused_by_ball",
    "C47_rb3d_file_refused_by_rb2d"
   ],
   "note": "All six ordered pairs of tools."
  },
  {
   "property": "C48",
   "status": "proved",
   "theorems": [
    "C48_completed_snapshots_survive",
    "C48_ball_overwrite_refuted",
    "C48_rb2d_overwrite_refuted",
    "C48_rb3d_overwrite_refuted"
   ],
   "note": "Keep mode proved; overwrite mode refuted for the three tools. HDF5 files are modelled only by name."
  },
  {
   "property": "C49",
   "status": "proved",
   "theorems": [
    "C49_ball",
    "C49_rb2",
    "C49_rb3",
    "C49_rb3_total",
    "C49_rb3_moving_kinematic_refuted",
    "C49_rb3_moving_plane_refuted",
    "C49_rb2_moving_plane_refuted"
   ],
   "note": "All contact kinds of the three simulators over the reals. Motion of obstacles that the constraint classes ignore is refuted separately."
  },
  {
   "property": "C50",
   "status": "proved",
   "theorems": [
    "C50_contacts",
    "C50_finishes",
    "C50_contact_velocity",
    "C50_self_contact_refuted",
    "C50_tunnelling_refuted"
   ],
   "note": "Ball-ball contacts with portals over exact reals. Self contact and tunnelling are shown as refuted expectations; the relative velocity when both balls are seen through sliding portals is not covered (the code uses one kick only)."
  },
  {
   "property": "C51",
   "status": "proved",
   "theorems": [
    "C51_ball_planes",
    "C51_ball_drums",
    "C51_ball_drum_large_refuted",
    "C51_rb2_planes",
    "C51_rb3_planes",
    "C51_rb3_cylinders",
    "C51_rb3_planes_staple_refuted",
    "C51_rb3_cylinders_box_refuted",
    "C51_sphere_cylinder_large_refuted",
    "C51_discs",
    "C51_balls",
    "C51_sphere_sphere",
    "C51_discs_gap",
    "C51_balls_gap",
    "C51_disc_plane_gap",
    "C51_ball_plane_gap",
    "C51_ball_cylinder_gap",
    "C51_discs_depth",
    "C51_balls_depth",
    "C51_plane_depth",
    "C51_circle_contact",
    "C51_sphere_contact",
    "C51_tele_circle_contact",
    "C51_tele_sphere_contact",
    "C51_cylinder_normal"
   ],
   "note": "The static-geometry active sets of the three simulators are modelled with the index of the obstacle; obstacles and bodies are sets of points in the statements. Refuted cases: a ball or sphere wider than its drum or cylinder, staples at planes, boxes and staples at cylinders."
  },
  {
   "property": "C52",
   "status": "proved",
   "theorems": [
    "C52_boundary",
    "C52_staple_refuted"
   ],
   "note": "Exact for boxes, spheres and meshes; refuted for staples, whose box ignores the wire thickness."
  },
  {
   "property": "C53",
   "status": "proved",
   "theorems": [
    "C53_overlap_volume"
   ],
   "note": "Volume is the integral of the areas of parallel slices (Coquelicot's Riemann integral); the slices are shown to be discs of the stated radius."
  },
  {
   "property": "C54",
   "status": "proved",
   "theorems": [
    "C54_impact",
    "C54_pushes",
    "C54_energy",
    "C54_minimum",
    "C54_mixed_restitution_refuted"
   ],
   "note": "LCP operator with the projected gradient solver inside ImpactMap: sign, restitution and complementarity up to the tolerance, energy bound for a single restitution coefficient, near-minimality of the quadratic. Finding: with mixed coefficients an exact solution adds energy."
  },
  {
   "property": "C55",
   "status": "proved",
   "theorems": [
    "C55_no_contact",
    "C55_no_contact_stabilized",
    "C55_no_contact_symplectic"
   ],
   "note": "All four contact maps, for arbitrary engines."
  },
  {
   "property": "C56",
   "status": "proved",
   "theorems": [
    "C56_planar_exact",
    "C56_planar_contacts",
    "C56_planar_count",
    "C56_planar_runs",
    "C56_spatial_exact",
    "C56_spatial_balls",
    "C56_spatial_runs",
    "C56_fast_disc_box_refuted",
    "C56_scripted_disc_near_box_refuted",
    "C56_fast_balls_refuted",
    "C56_flat_staples_refuted",
    "C56_ball_near_cube_refuted"
   ],
   "note": "Planar shapes in full; in space balls and staples in full, the box-box and mesh-mesh tests are arbitrary functions. No portals."
  },
  {
   "property": "C57",
   "status": "proved",
   "theorems": [
    "C57_ball",
    "C57_rigid_2d",
    "C57_rigid_3d",
    "C57_ball_others",
    "C57_rigid_2d_others",
    "C57_rigid_3d_others",
    "C57_reported_impulses_act",
    "C57_sphere_body_refuted"
   ],
   "note": "The inner Gauss-Seidel solver and the inverse of a mass block are arbitrary functions; the theorems ask that the blocks are inverted and that the solver returns as many numbers as rows. 2D: where mu is zero the reported friction impulse is set to zero after the velocity is computed; the two agree for solvers that return zero there (C57_reported_impulses_act)."
  },
  {
   "property": "C58",
   "status": "proved",
   "theorems": [
    "C58_ball_momentum",
    "C58_ball_angular",
    "C58_planar_momentum",
    "C58_planar_angular",
    "C58_planar_symplectic_refuted",
    "C58_spatial_momentum",
    "C58_spatial_angular"
   ],
   "note": "Scenes without static obstacles and portals, scripts that do not change the state. Friction with So-bogus asks that mass blocks are inverted. Balls with friction do not keep angular momentum: they have no spin degree of freedom."
  },
  {
   "property": "C59",
   "status": "proved",
   "theorems": [
    "C59_ball_energy",
    "C59_planar_energy",
    "C59_spatial_energy",
    "C59_spatial_exponential",
    "C59_tumbling_refuted",
    "C59_exponential_euler_refuted"
   ],
   "note": "Energy over whole runs of the unconstrained and impact maps, for the three simulators without portals; runs with friction are not covered. The impact operator is assumed to solve its complementarity problem (C17, C39, C40 and C54 treat the operators). Bodies in space need equal principal inertias: C59_tumbling_refuted shows why."
  },
  {
   "property": "C60",
   "status": "proved",
   "theorems": [
    "C60_integers",
    "C60_unsigned",
    "C60_flags",
    "C60_not_a_number",
    "C60_words",
    "C60_number_lists",
    "C60_response",
    "C60_forces_and_drums",
    "C60_portal_motion",
    "C60_camera_settings",
    "C60_accepted_scenes",
    "C60_balls",
    "C60_planes_and_portals",
    "C60_settings",
    "C60_element_order",
    "C60_camera",
    "C60_undefined_only",
    "C60_exit_only",
    "C60_numbers",
    "C60_fixed_word_refuted",
    "C60_line_feeds_refuted",
    "C60_masses_refuted",
    "C60_blank_attribute_refuted",
    "C60_unchecked_settings_refuted",
    "C60_time_step_refuted"
   ],
   "note": "The whole 2D ball scene parser from the XML tree on. C60_accepted_scenes gives the exact set of scenes; the _refuted theorems record the missing checks."
  },
  {
   "property": "C61",
   "status": "proved",
   "theorems": [
    "C61_accepted_scenes",
    "C61_bodies",
    "C61_planes_and_portals",
    "C61_settings",
    "C61_element_order",
    "C61_undefined_only",
    "C61_exit_only",
    "C61_staggered_refuted",
    "C61_no_integrator_refuted",
    "C61_infinite_refuted",
    "C61_empty_vector_refuted",
    "C61_components",
    "C61_response",
    "C61_portal_motion",
    "C61_camera_settings"
   ],
   "note": "The whole 2D rigid body scene parser from the XML tree on. C61_accepted_scenes gives the exact set of scenes."
  },
  {
   "property": "C62",
   "status": "proved",
   "theorems": [
    "C62_accepted_scenes",
    "C62_in_range",
    "C62_bodies",
    "C62_planes_and_portals",
    "C62_renderers",
    "C62_settings",
    "C62_element_order",
    "C62_undefined_only",
    "C62_exit_only",
    "C62_renderer_index_refuted",
    "C62_density_refuted",
    "C62_zero_normal_refuted",
    "C62_fps_refuted",
    "C62_geo_idx_refuted",
    "C62_grr_example_refuted",
    "C62_export_refuted",
    "C62_geometry_numbers",
    "C62_exported_bodies",
    "C62_multiplier_entries",
    "C62_response",
    "C62_portal_multipliers"
   ],
   "note": "What the 3D rigid body parser accepts, for every document; what each loaded field holds, where renderers go when portals take planes away; undefined and exiting cases characterised. The only size bound is fewer than 2^31 indexed elements in the completeness direction."
  },
  {
   "property": "C63",
   "status": "proved",
   "theorems": [
    "C63_integral_unique",
    "C63_circle",
    "C63_plane_box",
    "C63_sphere",
    "C63_box",
    "C63_mesh",
    "C63_staple_mass",
    "C63_staple_inertia_refuted",
    "C63_staple_unit",
    "C63_staple_corners"
   ],
   "note": "Exact real arithmetic. Meshes: every closed surface of a solid subdivided into positively oriented tetrahedra, assuming Eigen's symmetric decomposition is right for the tensor at hand. Staple inertia is refuted (C63_staple_inertia_refuted) with the exact error."
  },
  {
   "property": "C64",
   "status": "proved",
   "theorems": [
    "C64_field",
    "C64_detects",
    "C64_unit_normal",
    "C64_corners",
    "C64_accuracy",
    "C64_flat",
    "C64_contacts",
    "C64_exchange",
    "C64_moved",
    "C64_narrow_phase",
    "C64_undefined_exactly",
    "C64_far_corner_refuted",
    "C64_far_face_normal_refuted",
    "C64_level_refuted",
    "C64_huge_grid_refuted"
   ],
   "note": "Exact real arithmetic, 32-bit unsigned indices. Points on the far faces of the grid are excluded from C64_detects; C64_undefined_exactly says on which of them the test is undefined."
  },
  {
   "property": "C65",
   "status": "proved",
   "theorems": [
    "C65_read_back",
    "C65_scalar_read_back",
    "C65_text",
    "C65_sparse_read_back",
    "C65_kept",
    "C65_no_overwrite",
    "C65_writable_exactly",
    "C65_reads_what_is_there",
    "C65_open",
    "C65_defined",
    "C65_long_refuted",
    "C65_nested_refuted",
    "C65_uncompressed_refuted",
    "C65_text_refuted",
    "C65_huge_refuted"
   ],
   "note": "C65_read_back, C65_scalar_read_back, C65_text and C65_sparse_read_back: what was written is read back after any further history of calls and library failures; C65_kept, C65_no_overwrite: nothing is changed or overwritten; C65_writable_exactly: which names can be written; C65_reads_what_is_there, C65_defined: what a read can return; C65_open: opening. Refuted: long cannot be read, nested groups are not made, uncompressed sparse matrices, text with zero bytes, sizes beyond an int. The HDF5 library is modelled by its documentation."
  },
  {
   "property": "C66",
   "status": "proved",
   "theorems": [
    "C66_state3",
    "C66_read3",
    "C66_state2",
    "C66_stateb",
    "C66_determines3",
    "C66_returns3",
    "C66_returns2",
    "C66_returnsb",
    "C66_defined",
    "C66_portals3_refuted",
    "C66_plane_velocity_refuted",
    "C66_ball_scene_refuted",
    "C66_staple_refuted"
   ],
   "note": "All three simulations, any failure schedule of the library; numbers of any type. What the file leaves out is in the C66_..._refuted theorems."
  },
  {
   "property": "C67",
   "status": "proved",
   "theorems": [
    "C67_written_ball",
    "C67_written_2d",
    "C67_written_3d",
    "C67_where",
    "C67_impacts_ball",
    "C67_impacts_2d",
    "C67_impacts_3d",
    "C67_returns",
    "C67_components",
    "C67_accounts_ball",
    "C67_accounts_2d",
    "C67_accounts_3d",
    "C67_impacts_account_ball",
    "C67_impacts_account_2d",
    "C67_impacts_account_3d",
    "C67_which_obstacle_refuted",
    "C67_stops_refuted",
    "C67_scripted_refuted",
    "C67_portal_torque_refuted",
    "C67_sampled_friction_refuted"
   ],
   "note": "File contents for the three simulators, with friction and for impacts; when the export returns; components of the force in the contact frame; the sums of forces and torques are the changes of momentum, end to end from the friction solver to the file read back. Five findings."
  },
  {
   "property": "C68",
   "status": "proved",
   "theorems": [
    "C68_planar",
    "C68_planar_overlap",
    "C68_planar_runs",
    "C68_no_portals",
    "C68_spatial",
    "C68_spatial_runs",
    "C68_planar_only_discs",
    "C68_spatial_only_balls",
    "C68_tunnelling_refuted",
    "C68_self_contact_refuted",
    "C68_scripted_disc_refuted",
    "C68_box_refuted",
    "C68_both_planes_refuted"
   ],
   "note": "C68_planar / C68_spatial characterise the whole set of contacts in a world with portals; C68_planar_overlap, C68_no_portals, and _runs (the set is built for discs and balls). C68_..._only_discs/_only_balls say when the program stops. The refuted theorems record tunnelling, self contact, scripted discs, boxes and bodies reaching both planes of a portal."
  },
  {
   "property": "C69",
   "status": "proved",
   "theorems": [
    "C69_apart",
    "C69_overlapping",
    "C69_contacts",
    "C69_scene",
    "C69_touching_refuted"
   ],
   "note": "For all box poses and sizes over the reals: no contact without a common point, one to eight with a common point inside; common unit normal, overlap along it least along all face normals and within 5% of the least along any direction (separating axis theorem proved for zonotopes); contact points characterised as sets of points (clipping proved, deepest point kept, span kept), or the edge pair. C69_scene places the test in the simulation. C69_touching_refuted: boxes sharing only an edge. Rounding errors are not modelled; the epsilon tests of the code are."
  },
  {
   "property": "C70",
   "status": "proved",
   "theorems": [
    "C70_impact_problem",
    "C70_friction_problem",
    "C70_impact",
    "C70_disc",
    "C70_dissipation",
    "C70_impact_ql",
    "C70_interval_ql",
    "C70_sampled_ql",
    "C70_fallback",
    "C70_fallback_friction",
    "C70_solver_names",
    "C70_working_space",
    "C70_working_space_refuted",
    "C70_ql_errors_refuted",
    "C70_not_run_refuted",
    "C70_solveQP_refuted",
    "C70_missing_diagonal_refuted",
    "C70_no_multipliers_refuted",
    "C70_large_bound_refuted"
   ],
   "note": "Ipopt and QL enter as arbitrary functions that report success only at first-order points; friction with Ipopt is proved for exact solutions, impacts for any tolerance."
  },
  {
   "property": "C71",
   "status": "proved",
   "theorems": [
    "C71_session",
    "C71_deviations",
    "C71_ends",
    "C71_reset",
    "C71_defined",
    "C71_movie",
    "C71_frame_names",
    "C71_rate",
    "C71_second_scene_refuted",
    "C71_script_memory_refuted",
    "C71_start_deviation_refuted",
    "C71_first_frame_refuted",
    "C71_fps_change_refuted",
    "C71_reset_movie_refuted",
    "C71_start_callback_refuted",
    "C71_replaced_circle_refuted",
    "C71_box_refuted",
    "C71_zero_steps_refuted"
   ],
   "note": "The simulator, the scripts and the colour generator are arbitrary; floating point values of measurements are reals. Hypotheses on scripts and the excepted cases are each shown necessary by a _refuted theorem."
  },
  {
   "property": "C72",
   "status": "proved",
   "theorems": [
    "C72_plane_picture",
    "C72_plane_touched",
    "C72_plane_drag",
    "C72_plane_wheel",
    "C72_plane_zoom",
    "C72_plane_resize",
    "C72_plane_center_balls",
    "C72_plane_center_bodies",
    "C72_plane_locked",
    "C72_plane_opened",
    "C72_ball_open_refuted",
    "C72_ball_empty_refuted",
    "C72_rigid",
    "C72_target",
    "C72_upright",
    "C72_projection",
    "C72_orbit",
    "C72_track",
    "C72_dolly",
    "C72_wheel",
    "C72_ortho_drag",
    "C72_ortho_zoom",
    "C72_views",
    "C72_center_perspective",
    "C72_center_orthographic",
    "C72_drawn",
    "C72_locked",
    "C72_export",
    "C72_lock_refuted",
    "C72_open_first_refuted",
    "C72_wide_refuted",
    "C72_tiny_refuted",
    "C72_big_orthographic_refuted"
   ],
   "note": "planar and spatial cameras over the reals after any history of sensible events (positive window sizes, boxes that are not a point); FromTwoVectors by its stated properties, with a concrete instance; exceptions are the _refuted theorems; digits lost when settings are printed are not modelled"
  },
  {
   "property": "C73",
   "status": "proved",
   "theorems": [
    "C73_references",
    "C73_gui_exit",
    "C73_cli_exit",
    "C73_callback",
    "C73_no_script",
    "C73_script_of_the_scene",
    "C73_script_again",
    "C73_not_callable",
    "C73_leak_refuted",
    "C73_cli_exit_refuted",
    "C73_old_callback_refuted",
    "C73_apostrophe_refuted",
    "C73_moves",
    "C73_function_again"
   ],
   "note": "for every interpreter and every history of loads and callbacks; the references lost by reloads, the release after shut-down in the command line programs, callbacks left over from an earlier script and directories with an apostrophe are stated as refuted claims"
  },
  {
   "property": "C74",
   "status": "proved",
   "theorems": [
    "C74_views",
    "C74_errors",
    "C74_proper_scripts",
    "C74_kept_array_refuted",
    "C74_lost_write_refuted",
    "C74_insertion_refuted",
    "C74_wrong_callback_refuted",
    "C74_timestep_refuted"
   ],
   "note": "Whole runs with all six callbacks, for every script, integrator and number of steps; the promise is a small interpreter on the numbers alone and the model runs on a heap. Excepted uses of arrays are shown to fail in the refuted theorems."
  }
 ]
}