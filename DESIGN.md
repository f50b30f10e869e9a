# Formal model of SCISim in Rocq (Coq 8.16.1)

## Layout

`rocq/theories/` holds, per area `X`:

* `X_Model.v`  executable (or, over the reals, definitional) model, each definition cites file and lines in `/repo`;
* `X_Spec.v`   (when needed) the small independent specification the theorems refer to;
* `X_Proofs.v`, `X_Thms.v`, `X_Ex.v` and a few files named after their subject: lemmas and worked instances;
* `X_Props.v`  the property theorems: statement, `exact lemma`, `Print Assumptions`, non-vacuity `Example`s.

`MANIFEST.json` maps each property of `properties.jsonl` to its theorems. `seeded/LOG.jsonl` records the wrong programs the
theorems were tried against.

## Modelling conventions

* Release build (`NDEBUG`). Asserts are not executed; where the code relies on one it becomes a hypothesis, and
  where the release code goes on to do something undefined the model has a distinct outcome
  (`UB`), as it has for `std::exit` (`Exit`). `Outcome.v` defines the three outcomes and their sequencing.
* `scalar` (double) is an opaque 8-byte word in the serialisation model. It is a real number (`R` of the standard library)
  in the numerical models, a rational in the time stepping. Rounding is modelled in the broad phase only, which is proved
  for exact arithmetic and for IEEE binary64 (Flocq).
* Where a double becomes NaN or infinite in the code, the real-number model has no value for it: either the model function is
  partial there (`option`, `NotFinite`, `Exit`, `UB`) or the theorem has the hypothesis that excludes it (non-zero distance,
  positive mass).
* Integers are unbounded (`Z`/`N`/`nat`) unless the property concerns wrap-around.
* Vectors over all degrees of freedom are functions `nat -> R` of which the first entries count; sparse columns are lists of
  (row, value).
* A property whose full statement is false of the code has a theorem named `…_refuted` with a witness, and the true part under
  the exact condition.

## Areas

| area | code modelled | properties |
|----|----|----|
| `Rational_*`, `RatParse_*` | `scisim/Math/Rational.h`, `Rational.cpp`: arithmetic over `Z`, and again with 64-bit overflow as `UB`; parsing and printing branch by branch | C01–C04 |
| `Str_*` | `scisim/StringUtilities.*` | C05, C13 |
| `Codec_*`, `SnapBall_*`, `SnapRb2_*`, `SnapRb3_*`, `Snap_*` | `scisim/Utilities.h`, `Math/MathUtilities.*` (matrices), serialisation of the three states and caches, byte by byte | C06–C09, C42 |
| `Config_*` | serialisation of maps, operators and friction solvers, factories on reading | C09, C10 |
| `Names_*`, `Cli_*` | the three command line programs: argument effects, main loop, output, resuming, crash points | C11–C13, C47, C48 |
| `Grid_*` | `SpatialGridDetector` of the three simulators, generic over the arithmetic; instances exact (`Grid_Real`) and binary64 (`Grid_Arith`, `Grid_Final`) | C14, C15 |
| `Ccd_*` | `ball2d/…/BallBallConstraint` continuous test, ball-ball active set | C16 |
| `Lin_*`, `ContactBall_*`, `ContactRb2_*`, `ContactRb3_*`, `Contact*_Proofs`, `Jac_*` | every constraint class: `evalgradg`, friction columns, relative velocities, `computeN`/`computeD` of the maps | C18, C19, C49 |
| `Impact_*` | Gauss–Seidel operator and pair impacts | C17 |
| `Reflect_*` | GR and GRR operators | C20 |
| `Cache_*` | `ConstraintCache` of the three simulators; warm starting in `ImpactMap` and the friction maps; Eigen's `FromTwoVectors` | C21, C22 |
| `Portal_*` | planar portals of the three simulators, teleported contacts | C23–C25, C50 |
| `Integr_*` | ball and planar body integrators, forces, energies | C26, C27, C45 |
| `State_*` | `RigidBody2DState` and `Ball2DState` mutation | C28, C29, C43 |
| `Script_*` | the index-taking calls of the three scripting modules | C30 |
| `Rot_*` | 3D state, mass matrices, `SplitHamMap`, `DMVMap`, `ExponentialEulerMap`, `IntegrationTools`, energies and momenta | C26, C31–C33, C45 |
| `Geom_*` | bounding boxes, circle-box, box-box, segment-segment, point-box, staples | C34–C38 |
| `Frame_*` | contact bases, friction disks, forcing terms | C44 |
| `Wall_*`, `Vol_*` | contacts with planes, drums and cylinders, gaps and depths, simulation boundary, overlap volumes | C34, C51–C53 |
| `Quad_*`, `Resid_*`, `Apgd_*` | quadratic programs, stopping tests, projected gradient solver, LCP impacts | C39, C40, C54 |
| `Stagger_*` | staggered projections, one-pass friction | C41 |
| `Sparse_*` | sparse column extraction and matrix predicates | C42 |
| `Flow_*` | the four contact maps, the simulators' step, script hooks | C46, C55 |
| `Narrow_*`, `Grid_Real3` | rigid body contact sets between bodies: candidates from the grid over the reals, dispatch by shape, planar box/disc tests, balls and staples in space; portals left out; the spatial box-box and mesh-mesh tests are arbitrary functions returning points with normals | C56 |
| `Sob_*` | the So-bogus friction solver's interface for balls, planar and spatial rigid bodies: collecting and renumbering the bodies in contact, extraction of mass, positions and velocities, H, biases, warm start, write-back; the Gauss-Seidel iteration inside is an arbitrary function | C57 |
| `World_*` | whole runs: the flow of `Flow_` on the integrators, contact sets, contacts and solver interfaces of the other areas, for the three simulators without portals; impact and friction operators, the dual solver and the cache are arbitrary functions | C58 |
| `Energy_*` | the energy of the runs of `World_` without friction; the impact operator is any that meets its complementarity problem | C59 |
| `Scene_*` | scene files: number extraction from text (std::num_get), the loaders the three parsers share, the 2D ball parser; the XML library is the tree it delivers, rounding to a scalar is an arbitrary function | C60 |
| `Scene2_*` | scene files: the 2D rigid body parser; whether a computed norm is 0 and the computed masses are arbitrary functions | C61 |
| `Scene3_*` | scene files: the 3D rigid body parser, its renderers and portals, the scene exporter; mass, centre and axes of a shape, the rotation of a vector and mesh files that open are arbitrary functions | C62 |
| `SceneSay_*` | scene files: the contact settings (operators, solver, tolerances, cache) a file describes against those the loaded scene holds | C60, C61, C62 |
| `SceneNum_*` | scene files: how whole numbers, flags and words are read from attribute text | C60, C61, C62 |
| `Moment_*` | mass, centre of mass and moments of inertia of circles, plane boxes, spheres, boxes, staples and triangle meshes over the reals, against Riemann integrals over the shapes; the eigen decomposition of a symmetric matrix is an argument | C63 |
| `Sdf_*` | signed distance grids of triangle meshes and the contacts of two meshes, over the reals with 32-bit unsigned grid indices; reading the mesh file is not modelled | C64 |
| `Hdf_*` | the HDF5 file wrapper: names, groups, dense matrices of either storage order, numbers, text and sparse matrices; the HDF5 library is modelled by its documentation, with a schedule of failures; floating point numbers are of any type since they are only copied | C65 |
| `Out_*` | saving the state of the three simulations to an HDF5 file, on top of `Hdf_*`: headers, body lists, index tables, tables of shapes, static geometry; numbers are of any type since they are only copied | C66 |
| `Force_*` | the export of contact forces and of impact solutions, on top of `Hdf_*`, `Out_*`, the contact constraints and `Sob_*`; numbers are reals, indices 32-bit; the friction operators other than So-bogus enter by the impulses they return | C67 |
| `Tele_*` | the contact sets of planar and spatial rigid bodies in a world with portals, on top of `Portal_*`, `Grid_*`, `Narrow_*`; coordinates are reals, indices 32-bit, the tests for boxes and meshes in space are an oracle | C68 |
| `Boxes_*` | the box-box test in space (separating axes, reference and incident face, clipping, edge-edge points), with its place in the contact set of `Narrow_*`; coordinates are reals | C69 |
| `Nlp_*` | the quadratic programs handed to Ipopt and QL by the impact and friction operators: objective, bounds, constraints, first and second derivatives with their sparsity, the choice of linear solvers and what is made of the answers; numbers are reals, the solvers are arbitrary functions which report success only where the first-order conditions hold | C70 |
| `Gui_*` | the sessions of the three graphical programs: opening, stepping, resetting, movies, frame rates, colours and renderers, and the controls around them; drawing is reduced to its array accesses and to the picture it leaves, the simulator and the scripts are arbitrary functions; key bindings are not modelled, cameras are in `Cam_*` | C71 |
| `Cam_*` | the cameras of the three graphical programs: the planar controller, the perspective and the orthographic controller, and the window events that reach them; numbers and pixel counts are reals, the OpenGL state is the last projection and viewport set, `FromTwoVectors` is an arbitrary function with the properties Eigen states; exported settings are taken before they are printed | C72 |
| `Py_*` | how scripts are loaded and called: `PythonObject`, `PythonTools` and the loading, swapping, calling and destruction of `PythonScripting`; the interpreter is an arbitrary implementation of the C functions used; for finding scripts, a small interpreter with `sys.path`, `sys.modules`, module dictionaries, string literals without numeric escapes and files that only bind names | C73 |
| `Arr_*` | the arrays handed to scripts: a heap of vectors, the buffers of the state, the static variables of `PythonScripting.cpp` and the callbacks of a whole run of the ball simulator with an impact and friction map; scripts are arbitrary programs of fetches, reads, writes, insertions and questions about the time; resizing always moves the data, addresses are not used again, numbers are reals | C74 |

## Trusted base

* Coq's kernel, version 8.16.1, and its standard library. Flocq (binary64 rounding) and Coquelicot (Riemann integral in
  `Vol_*`) are used as ordinary proved libraries; no axiom comes from them beyond those below.
* The axioms of the standard library that `Print Assumptions` reports, and no others:
  `ClassicalDedekindReals.sig_forall_dec`, `ClassicalDedekindReals.sig_not_dec`,
  `FunctionalExtensionality.functional_extensionality_dep` (all three through `Coq.Reals`) and `Classical_Prop.classic`
  (through `Coq.Reals` and Coquelicot). A checker that lists opaque module fields also names the sealed constants of
  `Coq.Reals.Rdefinitions` (`RbaseSymbolsImpl`, `RinvImpl`) and `Coq.ssr.ssrunder.Under_rel`, which have definitions inside the
  standard library.
* No axioms, parameters or admitted proofs of our own. Section variables stand for code that is not modelled and become
  universally quantified.
* The correspondence between the Gallina definitions and the C++ is by reading. Each definition cites the lines it models
  and says where it simplifies.

## What is not modelled

* Rounding, overflow to infinity and NaN propagation of doubles, except in the broad phase and where stated.
* Eigen beyond the meaning of the calls used (products, segments, normalisation, quaternion and angle-axis conversion,
  `FromTwoVectors`, sparse insertion and iteration). The singular value decomposition is any that meets its specification.
* The solvers QL, Ipopt and so-bogus; operators that call them are arbitrary functions in the theorems about their callers.
* HDF5 output (only file names and the order of writes), XML scene parsing through rapidxml except as listed above,
  the embedded Python interpreter (scripts are arbitrary programs over the scripting interface), Qt front ends, rendering, timers.
* The signed distance field and convex hull of triangle meshes; `BoxBoxUtilities` in 3D; mesh-mesh contact generation.
* Data races: the code modelled is single threaded (the OpenMP pragmas concern loops without shared writes and are ignored).

## Findings

Each is a theorem about the model, with a witness, named after the property it contradicts.

* `C01_int_min_undefined_refuted`: arithmetic on the smallest 64-bit integer overflows (undefined)
* `C01_zero_denominator_refuted`: a zero denominator is normalised to 1/0 instead of being refused
* `C03_negative_below_one_refuted`: "-0.5" and "-.5" lose their sign
* `C03_trailing_text_ignored_refuted`: "1e-4" is read as 1
* `C03_malformed_accepted_refuted`: "1.2.3", "1/2/3" and "" are accepted
* `C03_long_fraction_undefined_refuted`: a fraction with more than 18 significant digits overflows
* `C05_tokenize_empty_refuted`: tokenising the empty string reads past its end
* `C06_penalty_force_not_restored_refuted`: a ball simulation with a penalty force writes a snapshot that cannot be read
* `C10_not_resumable_refuted`: solver settings a scene file may choose end the program when the run is resumed
* `C11_final_step_snapshot_refuted`: with force output the run takes one extra step; resuming from its snapshot takes another
* `C13_no_end_time_refuted`: without an end time the width of file numbers is computed from an undefined conversion
* `C15_key_wrap_self_pair_refuted`: beyond 2^32 cells the keys wrap and a box may be paired with itself
* `C15_rounding_self_pair_refuted`: rounding alone can pair a box with itself
* `C15_no_boxes_refuted`: an empty list of boxes makes an undefined conversion
* `C17_zero_tolerance_refuted`: Gauss–Seidel with tolerance zero does not end
* `C17_warm_start_refuted`: Gauss–Seidel with warm start applies cached impulses twice and adds energy
* `C17_ball_obstacle_refuted`: Gauss–Seidel ends the program at the first contact of a ball with a plane or drum
* `C22_two_point_contact_refuted`: two box contacts of one pair share a cache entry
* `C22_deleted_body_refuted`: deleting a body leaves the cache under the old numbers
* `C23_velocity_turned_refuted`: velocities are not turned by a portal whose planes do not face each other
* `C23_flipped_normal_refuted`: a 3D normal multiplier of -1 puts bodies behind the plane
* `C23_fixed_defined_refuted`: fixed portals convert a huge double to an integer (undefined)
* `C24_unbounded_refuted`: a sliding portal without bounds divides by zero
* `C24_too_late_refuted`: after 2^31 periods the conversion is undefined
* `C25_second_portal_refuted`: a second contact of the same pair through another portal is dropped
* `C26_fixed_ball_refuted`: the fixed attribute of a ball has no effect
* `C28_nan_body_refuted`: removing a body also removes every body with a NaN x coordinate
* `C29_geometry_in_use_refuted`: deleting geometry in use reads an unwritten index
* `C30_index_equal_to_count_refuted`: scripting calls accept an index equal to the count and read past the end
* `C30_wrap_refuted`: indices wrap modulo 2^32 before the check
* `C32_exponential_map_moves_scripted_bodies_refuted`: the exponential map moves scripted bodies
* `C34_staple_refuted`: the bounding box of a staple ignores its thickness
* `C34_box_sweep_refuted`: the collision box of a planar box covers its end position only
* `C37_short_segments_refuted`: segments shorter than the threshold are taken for points
* `C39_no_iterations_refuted`: with an iteration limit of zero the initial guess is lost
* `C39_parallel_walls_refuted`: the first Lipschitz estimate may be zero, and the step divides by it
* `C40_bound_constrained_refuted`: the bound-constrained residual accepts an upper bound with the wrong velocity
* `C40_disc_refuted`: the disc residual accepts friction along the sliding direction
* `C41_grr_success_refuted`: the one-pass solver reports success without a check
* `C41_friction_cone_refuted`: the final impact solve may leave friction outside the cone
* `C42_identity_refuted`: the zero matrix passes isIdentity
* `C44_sphere_body_refuted`: the frame of a sphere against a non-sphere body ends the program
* `C46_state_in_friction_hook_refuted`: asking for the state in a coefficient hook dereferences a null pointer
* `C46_iteration_in_friction_hook_refuted`: the iteration number in a coefficient hook is 0
* `C48_ball_overwrite_refuted`: in overwrite mode a crash while writing leaves no readable snapshot (ball2d)
* `C48_rb2d_overwrite_refuted`: same, rigidbody2d
* `C48_rb3d_overwrite_refuted`: same, rigidbody3d
* `C49_rb2_moving_plane_refuted`: the motion of a plane is ignored in contacts with bodies (2D)
* `C49_rb3_moving_plane_refuted`: same in 3D
* `C49_rb3_moving_kinematic_refuted`: the motion of a kinematic body is ignored in its contacts (3D)
* `C50_self_contact_refuted`: a ball in a narrow portal touches itself
* `C50_tunnelling_refuted`: with portals there is no continuous collision detection
* `C51_ball_drum_large_refuted`: a ball wider than its drum is not reported
* `C51_sphere_cylinder_large_refuted`: a sphere wider than its cylinder is not reported
* `C51_rb3_planes_staple_refuted`: a staple and a plane end the program
* `C51_rb3_cylinders_box_refuted`: a box or a staple and a cylinder end the program
* `C52_staple_refuted`: the boundary ignores the thickness of staples
* `C54_mixed_restitution_refuted`: with different restitution coefficients an exact impact adds energy
* `C56_fast_disc_box_refuted`: a disc that crosses a box within one step gets no contact
* `C56_scripted_disc_near_box_refuted`: a scripted disc near a free planar box ends the program although they do not touch
* `C56_fast_balls_refuted`: balls in space that pass through each other within one step get no contact
* `C56_flat_staples_refuted`: two staples lying flat on each other touch and are missed, because their boxes leave out the wire's thickness
* `C56_ball_near_cube_refuted`: a ball near a cube in space ends the program although they do not touch
* `C57_sphere_body_refuted`: a sphere-body contact given to the So-bogus solver ends the program (no index setters, no body indices); the simulator never creates one because the dispatch rejects mixed shapes first
* `C58_planar_symplectic_refuted`: the symplectic Euler friction map ends the program at the first step of any planar rigid body scene (the simulator has no linear inertial update)
* `C59_tumbling_refuted`: a free brick with unequal inertias gains rotational energy in one step of the split Hamiltonian map (large time step; the map is symplectic, not energy preserving)
* `C59_exponential_euler_refuted`: a body in free fall gains energy in every step of the exponential Euler map (positions move with the old velocity)
* `C60_fixed_word_refuted`: a ball whose fixed attribute is a word (true, yes) is loaded as a free ball: the extraction fails, stores false and nobody looks
* `C60_line_feeds_refuted`: line feeds are removed from the scene file before the XML is parsed, so a line break is not a separator between a tag name and its first attribute
* `C60_masses_refuted`: masses and radii of balls are not checked; text that is no number is read as 0
* `C60_blank_attribute_refuted`: a blank attribute of a ball, drum or gravity element leaves an uninitialised number in the scene
* `C60_unchecked_settings_refuted`: restitution of an impact operator is not checked, max_iters=-1 becomes 4294967295, a plane may have the zero vector as normal
* `C60_time_step_refuted`: dt=1e-4 is loaded as 1 and dt=1/0 as a fraction with denominator 0
* `C61_staggered_refuted`: no 2D rigid body scene with a staggered projections solver can be loaded: loading its friction operator ends the program
* `C61_no_integrator_refuted`: a 2D rigid body scene without an integrator is accepted, with no map and a time step of 0
* `C61_infinite_refuted`: bodies at infinite positions and boxes of infinite size are accepted
* `C61_empty_vector_refuted`: an empty vector attribute reads the last character of an empty string; two spaces between components are an error
* `C62_renderer_index_refuted`: a plane renderer whose index is the number of planes is accepted (the comparison is > instead of >=)
* `C62_density_refuted`: a negative density, and so a negative mass, is accepted in 3D
* `C62_zero_normal_refuted`: a 3D plane with a zero normal is accepted
* `C62_fps_refuted`: a frame rate of -1 is accepted as 4294967295, and 0 is accepted
* `C62_geo_idx_refuted`: the smallest int as geometry index is undefined behavior
* `C62_grr_example_refuted`: the generalized restitution friction solver documented in the parser is rejected by it
* `C62_export_refuted`: no scene written by the exporter can be loaded (it has no integrator)
* `C63_staple_inertia_refuted`: the moments of inertia of a staple cube the inner width and length where the square belongs; they are wrong unless both are one unit
* `C64_far_corner_refuted`: testing a point on the far z face of a mesh's distance grid reads past the end of the grid (C64_undefined_exactly gives all such points)
* `C64_far_face_normal_refuted`: on the far x face of the grid the normal is computed from the next row and can point the wrong way
* `C64_level_refuted`: where the distance field is level a mesh contact is created with a zero normal
* `C64_huge_grid_refuted`: grids of more than 2^32 values are indexed modulo 2^32 and miss contacts
* `C65_long_refuted`: matrices and numbers of type long, and so the sizes of every sparse matrix, can be written but never read back: getNativeType does not know the type
* `C65_nested_refuted`: a name with two missing groups cannot be written: only the last group is created
* `C65_uncompressed_refuted`: a sparse matrix in uncompressed mode is written wrong: the first nonZeros() slots are saved, gaps included, so different matrices leave the same file
* `C65_text_refuted`: text is saved only up to its first zero byte
* `C65_huge_refuted`: sizes are cut to 32 bits when reading: a matrix with 2^32 + 1 rows is read into room for one
* `C66_portals3_refuted`: saved 3D states do not hold the portals of the scene
* `C66_plane_velocity_refuted`: saved 2D states do not hold the velocities of moving planes
* `C66_ball_scene_refuted`: saved ball states hold neither drums nor portals
* `C66_staple_refuted`: saving the state of a 3D scene with a staple ends the program
* `C67_which_obstacle_refuted`: exported forces number planes, drums and cylinders from the same start, so that a plane and a drum or cylinder with the same number cannot be told apart
* `C67_stops_refuted`: a contact of a body with a cylinder or of a sphere with a body stops the export of forces
* `C67_scripted_refuted`: exported forces name scripted bodies as parties though no force acts on them
* `C67_portal_torque_refuted`: for contacts through a portal the exported point gives a wrong torque on the second body
* `C67_sampled_friction_refuted`: with friction sampled along several directions the export reads the friction impulses of other contacts
* `C68_tunnelling_refuted`: with a portal in the scene a 2D disc that passes through another one within a step is missed, although it is found without portals
* `C68_self_contact_refuted`: a rigid disc whose image through a portal touches it is in contact with itself
* `C68_scripted_disc_refuted`: a scripted 2D disc that touches another disc across a portal ends the program
* `C68_box_refuted`: a 2D box cut by a plane of a portal and seen near another body, or itself, ends the program
* `C68_both_planes_refuted`: a disc that reaches both planes of a portal is seen through the first one only, so contacts are missed
* `C69_touching_refuted`: two boxes that share an edge and nothing else get no contact, and a build with assertions stops there
* `C70_working_space_refuted`: the size of QL's working space overflows an int from 26755 unknowns on
* `C70_ql_errors_refuted`: what QL returns together with an error it knows is used like a solution, after a warning
* `C70_not_run_refuted`: if Ipopt stops before reporting anything, the friction operator returns the guess it was given as a success
* `C70_solveQP_refuted`: SmoothMDPOperatorIpopt::solveQP prints that it exits when every linear solver failed, and returns what the last one left
* `C70_missing_diagonal_refuted`: if a diagonal entry of D' Minv D is not stored, the second derivatives given to Ipopt are wrong
* `C70_no_multipliers_refuted`: for a sliding contact without normal impulse the disc problem has no multipliers, so an exact solver fails and the program ends
* `C70_large_bound_refuted`: a friction bound whose square reaches 10^19 is taken for no bound
* `C71_second_scene_refuted`: rigidbody2dqt4 does not clear the constraint cache when a scene is opened, so a second scene starts with the forces of the first
* `C71_script_memory_refuted`: a reset does not reload the script, so a script that remembers something makes the second run different
* `C71_start_deviation_refuted`: what the start of simulation callback does to the energy is displayed as deviation
* `C71_first_frame_refuted`: when only frames are painted, a movie switched on between two of them starts with an old picture
* `C71_fps_change_refuted`: changing the frame rate while a movie is exported starts the numbering again and overwrites frames
* `C71_reset_movie_refuted`: in rigidbody3dqt4 a reset leaves the movie running
* `C71_start_callback_refuted`: a ball added by the start of simulation callback has no colour, painting reads past the end of the colours
* `C71_replaced_circle_refuted`: in rigidbody2dqt4 a script that replaces a circle within a step leaves a renderer with a dangling reference
* `C71_box_refuted`: in rigidbody2dqt4 a script that adds a circle to a scene with a box ends the program
* `C71_zero_steps_refuted`: 2^32 steps per frame are stored as 0 and the next step divides by it
* `C72_ball_open_refuted`: in ball2dqt4 a scene opened from the menu is drawn with the projection of the previous one
* `C72_ball_empty_refuted`: in ball2dqt4 centring without balls resets the camera but not the picture
* `C72_lock_refuted`: a locked camera in rigidbody3dqt4 still changes when another view is chosen
* `C72_open_first_refuted`: a scene without a camera opened before the window is first shown is framed for a 60 degree angle of view but drawn with 54.43: a box can be cut off
* `C72_wide_refuted`: centring in a window of 1296 x 196 pixels moves the camera beyond the far plane
* `C72_tiny_refuted`: centring on a ball of radius 0.001 puts it before the near plane
* `C72_big_orthographic_refuted`: the far side of a ball of radius 100 is not drawn in an orthographic view
* `C73_leak_refuted`: every script loaded leaves one reference to its module behind, the one returned by the reload
* `C73_cli_exit_refuted`: the command line programs release Python objects after the interpreter was shut down
* `C73_old_callback_refuted`: a callback of a script opened before still runs when the present script of the same name does not define it
* `C73_apostrophe_refuted`: a scene in a directory with an apostrophe in its name cannot use a script
* `C74_kept_array_refuted`: an array of positions that a script keeps until the next step points to freed memory
* `C74_lost_write_refuted`: what endOfStep writes to an array fetched in startOfStep is lost
* `C74_insertion_refuted`: an array fetched before insertBall points to freed memory afterwards
* `C74_wrong_callback_refuted`: asking for the configuration in a coefficient callback, or for coefficients elsewhere, dereferences a null pointer
* `C74_timestep_refuted`: the timestep a script sees outside the callbacks of a step is zero or not a number

## Properties: how each is proved and what its theorems leave out

| id | status | theorems | note |
|----|----|----|----|
| C01 | proved | C01_make_lowest_terms, C01_history_lowest_terms, C01_equality_decides_value, C01_make_defined, C01_arithmetic_defined, C01_int_min_undefined_refuted, C01_zero_denominator_refuted | Lowest terms, equality and overflow-freedom under a size bound; INT64_MIN and zero denominators are recorded as refutations. |
| C02 | proved | C02_history_exact, C02_make_exact, C02_mixed_exact, C02_queries | Exact values for every history of operations on the 64-bit model. |
| C03 | proved | C03_decimal_exact, C03_decimal_accepted, C03_negative_below_one_refuted, C03_fraction_exact, C03_fraction_accepted, C03_fraction_out_of_range_rejected, C03_trailing_text_ignored_refuted, C03_malformed_accepted_refuted, C03_long_fraction_undefined_refuted | Exact value of decimals and fractions, acceptance up to 18 digits; the sign loss of -0.F, ignored trailing text and overflow of long fractions are recorded as refutations. |
| C04 | proved | C04_print_parse | Print then parse is the identity on reduced rationals. |
| C05 | proved | C05_tokenize, C05_pieces_unique, C05_tokenize_empty_refuted, C05_split_last, C05_trim, C05_trim_right, C05_white_space, C05_remove_white_space, C05_num_right, C05_pad | String helpers against list specifications. |
| C06 | proved | C06_ball_round_trip, C06_penalty_force_not_restored_refuted | All ball states; the penalty force exception is proved too. |
| C07 | proved | C07_rb2d_round_trip | All 2D rigid body states. |
| C08 | proved | C08_rb3d_round_trip, C08_staple_terminates | All 3D rigid body states; staples end the program when written. |
| C09 | proved | C09_ball_file_truncated, C09_rb2d_file_truncated, C09_rb3d_file_truncated, C09_ball_truncated, C09_rb2d_truncated, C09_rb3d_truncated, C09_ball_injective, C09_rb2d_injective, C09_rb3d_injective | Simulation part and whole files, for every cut point. Running past the end is undefined behaviour in the release build, not a reported error. |
| C10 | proved | C10_ball_known_resumes, C10_ball_unknown_terminates, C10_ball_unwritable_terminates, C10_rb2d_known_resumes, C10_rb2d_unknown_terminates, C10_rb2d_unwritable_terminates, C10_rb3d_known_resumes, C10_rb3d_unknown_terminates, C10_rb3d_unwritable_terminates, C10_not_resumable_refuted | Known configurations round-trip, all others end the program when read or when written. |
| C11 | proved | C11_ball_resume, C11_rb2d_resume, C11_rb3d_resume, C11_final_step_snapshot_refuted | For all three tools, with arbitrary integrators and end-time tests. Exception proved as C11_final_step_snapshot_refuted: the snapshot written in the extra step taken when forces are output. |
| C12 | proved | C12_schedule | Arbitrary integrators and end-time test. The hypothesis iteration = frame * steps_per_save holds at start (0 = 0) and after resuming. |
| C13 | proved | C13_names_sort, C13_names_distinct, C13_force_names_distinct, C13_frame_number, C13_digits, C13_width_suffices, C13_no_end_time_refuted, C13_steps_per_save_sound, C13_steps_per_save_complete | Widths, order, distinctness. Times are exact rationals. C13_no_end_time_refuted: without an end time the width computation is undefined. |
| C14 | proved | C14_grid2_complete_binary64, C14_grid3_complete_binary64, C14_grid2_complete, C14_grid3_complete | 2D and 3D grids, both in exact arithmetic and in IEEE binary64 (all roundings, key wrap-around included); lists of at most 2^32 boxes |
| C15 | proved | C15_grid2_exact, C15_grid3_exact, C15_all_pairs2, C15_all_pairs3, C15_trial_exact, C15_grid2_sound_binary64, C15_grid3_sound_binary64, C15_key_wrap_self_pair_refuted, C15_rounding_self_pair_refuted, C15_no_boxes_refuted | exact whenever the scene needs at most 2^32 cells; refuted otherwise (a box paired with itself after key wrap, or when the margins are rounded away; empty list undefined) |
| C16 | proved | C16_ccd_first_touch, C16_no_division_by_zero, C16_active_set_exact | ballBallCCDCollisionHappens over the reals: reports a collision exactly when the balls touch at some time in [0,1], with the first such time; no division by zero; combined with the grid, the ball-ball active set is exactly the touching pairs. Rounding is not modelled. |
| C17 | proved | C17_ball_impact, C17_sphere_impact, C17_ball_gauss_seidel, C17_sphere_gauss_seidel, C17_ball_terminates, C17_sphere_terminates, C17_ball_terminates_inelastic, C17_zero_tolerance_refuted, C17_warm_start_refuted, C17_ball_obstacle_refuted | Single impacts and Gauss-Seidel with cold start, any number of balls/spheres and contacts; termination for positive tolerance given a feasible velocity. Refuted: tolerance 0, warm start, ball against plane or drum. |
| C18 | proved | C18_ball, C18_rb2, C18_rb3, C18_flag | Any number of impulses, along any columns the impact, friction and coupled solvers can use, from contacts that report momentum conservation; the report itself is characterised. |
| C19 | proved | C19_ball_impact, C19_rb2_impact, C19_rb2_friction, C19_rb3_impact, C19_rb3_friction, C19_flag | Contacts made at the same configuration; which contacts advertise conservation is characterised. 3D inertia blocks are arbitrary inverse pairs. The sphere-body contact point is assumed to lie on the normal through the sphere centre. |
| C20 | proved | C20_gr, C20_gr_returns, C20_grr, C20_grr_blend, C20_one_coefficient, C20_lcp_step, C20_ball_mass, C20_rb2_mass, C20_rb3_mass | Reflection operators over an arbitrary mass matrix (instances for the three programs), arbitrary inner operator; feasibility on return for any inner operator; energy and termination for inner operators that solve their complementarity problems. |
| C21 | proved | C21_ball_cache_is_a_map, C21_rb2_cache_is_a_map, C21_rb3_cache_is_a_map, C21_unsupported, C21_ball_sorted, C21_rb2_sorted, C21_rb3_sorted | all histories of store/clear/look-up calls on the three caches, proved through one refinement to a list of stored contacts; also: kinds the caches do not know end the program, and the maps stay strictly sorted as the snapshot format needs. Pair contacts are assumed listed lower index first, as collision detection reports them (asserted in debug builds). |
| C22 | proved | C22_impact_map, C22_normal_mode, C22_planar_friction_mode, C22_spatial_friction_mode, C22_from_two_vectors, C22_cold_start, C22_unsupported_contacts, C22_two_point_contact_refuted, C22_deleted_body_refuted | every run of steps of ImpactMap and of the friction maps in modes NORMAL and NORMAL_AND_FRICTION (2D and 3D, Eigen's FromTwoVectors modelled over the reals) starts each contact from the impulse the previous step computed for it; refuted where two contacts share a key (two-point box contacts) and after a script deletes a body. Unsupported contact kinds end the program. |
| C23 | proved | C23_fixed, C23_fixed_defined_refuted, C23_sliding, C23_sliding_b, C23_sliding_round_trip, C23_sliding_distance, C23_velocity_of_image, C23_enforce_torus, C23_enforce_sliding, C23_velocity_turned_refuted, C23_box_test2, C23_box_test3, C23_space, C23_enforce_space, C23_flipped_normal_refuted | 2D fixed and sliding portals and 3D portals over exact reals; fixed portals assume hardware double-to-int conversion (formally undefined: C23_fixed_defined_refuted). Velocities are not turned for planes that do not face each other (refuted) and a 3D normal multiplier of -1 puts bodies behind the other plane (refuted). Enforcement for several sliding portals at once is not proved. |
| C24 | proved | C24_update, C24_history, C24_all_portals, C24_unbounded_refuted, C24_too_late_refuted | Displacement within bounds and function of time only; undefined without bounds and after 2^31 periods. |
| C25 | proved | C25_symmetric, C25_order, C25_first_per_pair, C25_second_portal_refuted | Order, symmetry and first-per-pair behaviour of the set of teleported contacts; the second contact of a pair is lost (refuted). |
| C26 | proved | C26_ball_verlet, C26_ball_euler, C26_rb2_verlet, C26_rb2_euler, C26_fixed_ball_refuted, C26_rb3_gravity | Any number of steps, any number of bodies; the ball 'fixed' flag having no effect is recorded as C26_fixed_ball_refuted. The 3D maps are under C32/C33. |
| C27 | proved | C27_ball_verlet_reversible, C27_rb2_verlet_reversible, C27_force_defined, C27_ball_euler_momentum, C27_ball_verlet_momentum, C27_ball_angular_momentum, C27_ball_euler_torque | k-step reversibility and momentum/angular momentum laws for gravity plus penalty forces. |
| C28 | proved | C28_remove, C28_naming_twice, C28_add, C28_history, C28_completed_history, C28_direct_call_unchecked, C28_nan_body_refuted | removeBodies/addBody on the arrays themselves, refinement to a list of bodies for single calls and any script history; refuted for bodies with a NaN x coordinate (deleted unnamed) and for direct calls with an index past the end |
| C29 | proved | C29_unused_geometry, C29_geometry_in_use_refuted | removeGeometry with its index map; in-use deletion proved to read an unwritten index |
| C30 | proved | C30_valid_index, C30_invalid_index_exits, C30_index_equal_to_count_refuted, C30_wrap_refuted, C30_axis_checked, C30_scripts_safe | all sixteen index-taking calls of the three scripting modules; the violations at index == count and beyond 2^32 are proved as refutations |
| C31 | proved | C31_set_state, C31_recomputed, C31_inverse, C31_symmetric, C31_kinetic_energy_positive, C31_steps, C31_planar | Mass arrays of the 3D state (body space, world space, set and recomputed) are symmetric, inverse to each other and positive for every number of bodies, and stay so over any number of steps of the three integrators; the planar diagonals too. |
| C32 | proved | C32_split_hamiltonian, C32_moser_veselov, C32_quaternion_round_trip, C32_exponential_map, C32_decomposition_exists, C32_exponential_euler, C32_exponential_euler_bodies, C32_steps, C32_exponential_map_moves_scripted_bodies_refuted | Split Hamiltonian, discrete Moser-Veselov (through Eigen's quaternion conversion, all branches), the exponential map (with the polar projection by a singular value decomposition, which is shown to exist for the matrices at hand) and exponentialEuler map rotations to rotations, over any number of steps. Finding: the exponential map moves scripted bodies. |
| C33 | proved | C33_split_hamiltonian, C33_moser_veselov, C33_split_step, C33_split_principal_axis, C33_split_reversible, C33_moser_veselov_step, C33_moser_veselov_equation, C33_scripted_body | Angular and linear momentum of every free body kept over any number of split Hamiltonian and Moser-Veselov steps; principal-axis rotation exact and the split rotation time reversible; the Moser-Veselov iteration's fixed points solve the discrete equation. Finding: scripted bodies come out with momenta stored as velocities. |
| C34 | proved | C34_circle, C34_box, C34_swept_circle, C34_sphere, C34_box3, C34_mesh, C34_rb2_state, C34_ball_state, C34_rb3_state, C34_staple_refuted, C34_staple, C34_box_sweep_refuted, C34_box_end_position, C34_bounding_sphere | Bounding boxes of circles, planar boxes, swept circles, spheres, rotated 3D boxes, vertex lists (convex hull) and whole states of all three simulators enclose the bodies and are the smallest boxes that do; refuted for staples (thickness ignored; widened by the radius the box is the smallest) and for the planar box over its motion. Reals in place of doubles. |
| C35 | proved | C35_exact, C35_contact, C35_centre_outside | Contact reported exactly when disc and rotated box share a point; normal is a unit outward normal of the box; with the centre outside it points along the nearest point. |
| C36 | proved | C36_box_box | Exact: no contact iff disjoint, with a face normal separating; otherwise unit normal of least overlap, one or two points, each a face contact of the reference face. |
| C37 | proved | C37_segments, C37_short_segments_refuted, C37_staples | Parameters in [0,1] and minimal distance for segments that are points or longer than the threshold; refuted for short ones; staple-staple test exact. |
| C38 | proved | C38_in_box, C38_nearest, C38_box_sphere | Closest point is in the box and nearest; box-sphere active set exact, exits when the centre is (nearly) in the box. |
| C39 | proved | C39_best_iterate, C39_larger_limit, C39_ends, C39_momentum, C39_projection, C39_no_iterations_refuted, C39_parallel_walls_refuted | For every projection, residual, matrix, tolerance and limit: the result is a projected point, is one of the points visited and has the least residual; status, iteration count and reported tolerance agree with it; more iterations never make it worse; the backtracking loop ends for every symmetric matrix unless the first Lipschitz estimate is zero. Findings: limit 0 gives an empty vector; a ball between parallel walls makes the estimate zero and the first step divides by it. |
| C40 | proved | C40_min_map, C40_min_map_tolerance, C40_fischer_burmeister, C40_equivalent, C40_bound_constrained, C40_bound_constrained_refuted, C40_disc, C40_disc_refuted | Min map and Fischer-Burmeister: zero exactly at complementarity, with the meaning of a tolerance and mutual bounds. Friction variants: exact set of zeros, which is the optimality condition plus one wrong case each (upper bound; impulse along the sliding direction), given as refutations. |
| C41 | proved | C41_honest, C41_best_pass, C41_non_penetrating, C41_friction_of_a_pass, C41_contact_force, C41_grr_velocity, C41_grr_success_refuted, C41_friction_cone_refuted | For arbitrary impact/friction operators (with memory) and residual: velocity = v0 + effect of returned impulses, error = residual of returned impulses, success iff within tolerance; friction from the first pass within tolerance or the best pass; final impact solve keeps non-penetration even on failure; contact forces recover impulses. Findings: one-pass GRR friction solver always reports success with error 0; final impact solve can leave friction above mu times the returned normal impulse. |
| C42 | proved | C42_dense_vector_round_trip, C42_dense_matrix_round_trip, C42_sparse_round_trip, C42_sparse_truncated, C42_entries_unique, C42_extract_columns, C42_extract_out_of_range, C42_symmetric, C42_identity, C42_identity_refuted | Byte round trips of dense and sparse matrices (Snap_Props) and column extraction (Sparse_Props) against a dense-matrix specification. Finding: isIdentity only inspects stored entries, so a zero matrix passes. |
| C43 | proved | C43_push, C43_history, C43_bad_ball_exits, C43_masses_inverse | pushBallBack and insertBall, single calls and any sequence |
| C44 | proved | C44_spatial, C44_rb3, C44_rb3_total, C44_sphere_body_refuted, C44_ball, C44_rb2, C44_disk_angles, C44_disk, C44_forcing | Frames of all contact classes of the three simulators, singly and assembled; friction disk directions; forcing term. Hypothesis: the contact normal is unit. A sphere against a non-sphere body ends the program (C44_sphere_body_refuted). Exact real arithmetic. |
| C45 | proved | C45_ball_kinetic, C45_rb2_kinetic, C45_ball_momenta, C45_rb2_momenta, C45_ball_gravity_potential, C45_rb2_gravity_potential, C45_ball_force_is_minus_gradient, C45_rb2_force_is_minus_gradient, C45_ball_verlet_energy, C45_ball_euler_energy, C45_rb2_verlet_energy, C45_rb3_kinetic, C45_rb3_momentum, C45_rb3_angular_momentum, C45_rb3_potential, C45_rb3_force | Planar and 3D energies, momenta and angular momenta equal the textbook sums; gravity is minus the gradient of its potential. |
| C46 | proved | C46_step, C46_run, C46_iterations, C46_end_of_simulation, C46_polite_scripts_are_safe, C46_coefficients_reach_the_solver, C46_restitution_reaches_the_operator, C46_masses_are_current, C46_state_in_friction_hook_refuted, C46_iteration_in_friction_hook_refuted | For arbitrary integrators, collision detection, solvers and scripts (programs over the scripting API): hook order in every step, over every run of the tools' loop, with consecutive iteration numbers and chained states; end-of-simulation hook exactly once; scripts keeping to their hook's data never dereference null. Findings: state access from a coefficient hook is a null dereference; nextIteration() is 0 there. |
| C47 | proved | C47_ball_file_refused_by_rb2d, C47_ball_file_refused_by_rb3d, C47_rb2d_file_refused_by_ball, C47_rb2d_file_refused_by_rb3d, C47_rb3d_file_refused_by_ball, C47_rb3d_file_refused_by_rb2d | All six ordered pairs of tools. |
| C48 | proved | C48_completed_snapshots_survive, C48_ball_overwrite_refuted, C48_rb2d_overwrite_refuted, C48_rb3d_overwrite_refuted | Keep mode proved; overwrite mode refuted for the three tools. HDF5 files are modelled only by name. |
| C49 | proved | C49_ball, C49_rb2, C49_rb3, C49_rb3_total, C49_rb3_moving_kinematic_refuted, C49_rb3_moving_plane_refuted, C49_rb2_moving_plane_refuted | All contact kinds of the three simulators over the reals. Motion of obstacles that the constraint classes ignore is refuted separately. |
| C50 | proved | C50_contacts, C50_finishes, C50_contact_velocity, C50_self_contact_refuted, C50_tunnelling_refuted | Ball-ball contacts with portals over exact reals. Self contact and tunnelling are shown as refuted expectations; the relative velocity when both balls are seen through sliding portals is not covered (the code uses one kick only). |
| C51 | proved | C51_ball_planes, C51_ball_drums, C51_ball_drum_large_refuted, C51_rb2_planes, C51_rb3_planes, C51_rb3_cylinders, C51_rb3_planes_staple_refuted, C51_rb3_cylinders_box_refuted, C51_sphere_cylinder_large_refuted, C51_discs, C51_balls, C51_sphere_sphere, C51_discs_gap, C51_balls_gap, C51_disc_plane_gap, C51_ball_plane_gap, C51_ball_cylinder_gap, C51_discs_depth, C51_balls_depth, C51_plane_depth, C51_circle_contact, C51_sphere_contact, C51_tele_circle_contact, C51_tele_sphere_contact, C51_cylinder_normal | The static-geometry active sets of the three simulators are modelled with the index of the obstacle; obstacles and bodies are sets of points in the statements. Refuted cases: a ball or sphere wider than its drum or cylinder, staples at planes, boxes and staples at cylinders. |
| C52 | proved | C52_boundary, C52_staple_refuted | Exact for boxes, spheres and meshes; refuted for staples, whose box ignores the wire thickness. |
| C53 | proved | C53_overlap_volume | Volume is the integral of the areas of parallel slices (Coquelicot's Riemann integral); the slices are shown to be discs of the stated radius. |
| C54 | proved | C54_impact, C54_pushes, C54_energy, C54_minimum, C54_mixed_restitution_refuted | LCP operator with the projected gradient solver inside ImpactMap: sign, restitution and complementarity up to the tolerance, energy bound for a single restitution coefficient, near-minimality of the quadratic. Finding: with mixed coefficients an exact solution adds energy. |
| C55 | proved | C55_no_contact, C55_no_contact_stabilized, C55_no_contact_symplectic | All four contact maps, for arbitrary engines. |
| C56 | proved | C56_planar_exact, C56_planar_contacts, C56_planar_count, C56_planar_runs, C56_spatial_exact, C56_spatial_balls, C56_spatial_runs, C56_fast_disc_box_refuted, C56_scripted_disc_near_box_refuted, C56_fast_balls_refuted, C56_flat_staples_refuted, C56_ball_near_cube_refuted | Planar shapes in full; in space balls and staples in full, the box-box and mesh-mesh tests are arbitrary functions. No portals. |
| C57 | proved | C57_ball, C57_rigid_2d, C57_rigid_3d, C57_ball_others, C57_rigid_2d_others, C57_rigid_3d_others, C57_reported_impulses_act, C57_sphere_body_refuted | The inner Gauss-Seidel solver and the inverse of a mass block are arbitrary functions; the theorems ask that the blocks are inverted and that the solver returns as many numbers as rows. 2D: where mu is zero the reported friction impulse is set to zero after the velocity is computed; the two agree for solvers that return zero there (C57_reported_impulses_act). |
| C58 | proved | C58_ball_momentum, C58_ball_angular, C58_planar_momentum, C58_planar_angular, C58_planar_symplectic_refuted, C58_spatial_momentum, C58_spatial_angular | Scenes without static obstacles and portals, scripts that do not change the state. Friction with So-bogus asks that mass blocks are inverted. Balls with friction do not keep angular momentum: they have no spin degree of freedom. |
| C59 | proved | C59_ball_energy, C59_planar_energy, C59_spatial_energy, C59_spatial_exponential, C59_tumbling_refuted, C59_exponential_euler_refuted | Energy over whole runs of the unconstrained and impact maps, for the three simulators without portals; runs with friction are not covered. The impact operator is assumed to solve its complementarity problem (C17, C39, C40 and C54 treat the operators). Bodies in space need equal principal inertias: C59_tumbling_refuted shows why. |
| C60 | proved | C60_integers, C60_unsigned, C60_flags, C60_not_a_number, C60_words, C60_number_lists, C60_response, C60_forces_and_drums, C60_portal_motion, C60_camera_settings, C60_accepted_scenes, C60_balls, C60_planes_and_portals, C60_settings, C60_element_order, C60_camera, C60_undefined_only, C60_exit_only, C60_numbers, C60_fixed_word_refuted, C60_line_feeds_refuted, C60_masses_refuted, C60_blank_attribute_refuted, C60_unchecked_settings_refuted, C60_time_step_refuted | The whole 2D ball scene parser from the XML tree on. C60_accepted_scenes gives the exact set of scenes; the _refuted theorems record the missing checks. |
| C61 | proved | C61_accepted_scenes, C61_bodies, C61_planes_and_portals, C61_settings, C61_element_order, C61_undefined_only, C61_exit_only, C61_staggered_refuted, C61_no_integrator_refuted, C61_infinite_refuted, C61_empty_vector_refuted, C61_components, C61_response, C61_portal_motion, C61_camera_settings | The whole 2D rigid body scene parser from the XML tree on. C61_accepted_scenes gives the exact set of scenes. |
| C62 | proved | C62_accepted_scenes, C62_in_range, C62_bodies, C62_planes_and_portals, C62_renderers, C62_settings, C62_element_order, C62_undefined_only, C62_exit_only, C62_renderer_index_refuted, C62_density_refuted, C62_zero_normal_refuted, C62_fps_refuted, C62_geo_idx_refuted, C62_grr_example_refuted, C62_export_refuted, C62_geometry_numbers, C62_exported_bodies, C62_multiplier_entries, C62_response, C62_portal_multipliers | What the 3D rigid body parser accepts, for every document; what each loaded field holds, where renderers go when portals take planes away; undefined and exiting cases characterised. The only size bound is fewer than 2^31 indexed elements in the completeness direction. |
| C63 | proved | C63_integral_unique, C63_circle, C63_plane_box, C63_sphere, C63_box, C63_mesh, C63_staple_mass, C63_staple_inertia_refuted, C63_staple_unit, C63_staple_corners | Exact real arithmetic. Meshes: every closed surface of a solid subdivided into positively oriented tetrahedra, assuming Eigen's symmetric decomposition is right for the tensor at hand. Staple inertia is refuted (C63_staple_inertia_refuted) with the exact error. |
| C64 | proved | C64_field, C64_detects, C64_unit_normal, C64_corners, C64_accuracy, C64_flat, C64_contacts, C64_exchange, C64_moved, C64_narrow_phase, C64_undefined_exactly, C64_far_corner_refuted, C64_far_face_normal_refuted, C64_level_refuted, C64_huge_grid_refuted | Exact real arithmetic, 32-bit unsigned indices. Points on the far faces of the grid are excluded from C64_detects; C64_undefined_exactly says on which of them the test is undefined. |
| C65 | proved | C65_read_back, C65_scalar_read_back, C65_text, C65_sparse_read_back, C65_kept, C65_no_overwrite, C65_writable_exactly, C65_reads_what_is_there, C65_open, C65_defined, C65_long_refuted, C65_nested_refuted, C65_uncompressed_refuted, C65_text_refuted, C65_huge_refuted | C65_read_back, C65_scalar_read_back, C65_text and C65_sparse_read_back: what was written is read back after any further history of calls and library failures; C65_kept, C65_no_overwrite: nothing is changed or overwritten; C65_writable_exactly: which names can be written; C65_reads_what_is_there, C65_defined: what a read can return; C65_open: opening. Refuted: long cannot be read, nested groups are not made, uncompressed sparse matrices, text with zero bytes, sizes beyond an int. The HDF5 library is modelled by its documentation. |
| C66 | proved | C66_state3, C66_read3, C66_state2, C66_stateb, C66_determines3, C66_returns3, C66_returns2, C66_returnsb, C66_defined, C66_portals3_refuted, C66_plane_velocity_refuted, C66_ball_scene_refuted, C66_staple_refuted | All three simulations, any failure schedule of the library; numbers of any type. What the file leaves out is in the C66_..._refuted theorems. |
| C67 | proved | C67_written_ball, C67_written_2d, C67_written_3d, C67_where, C67_impacts_ball, C67_impacts_2d, C67_impacts_3d, C67_returns, C67_components, C67_accounts_ball, C67_accounts_2d, C67_accounts_3d, C67_impacts_account_ball, C67_impacts_account_2d, C67_impacts_account_3d, C67_which_obstacle_refuted, C67_stops_refuted, C67_scripted_refuted, C67_portal_torque_refuted, C67_sampled_friction_refuted | File contents for the three simulators, with friction and for impacts; when the export returns; components of the force in the contact frame; the sums of forces and torques are the changes of momentum, end to end from the friction solver to the file read back. Five findings. |
| C68 | proved | C68_planar, C68_planar_overlap, C68_planar_runs, C68_no_portals, C68_spatial, C68_spatial_runs, C68_planar_only_discs, C68_spatial_only_balls, C68_tunnelling_refuted, C68_self_contact_refuted, C68_scripted_disc_refuted, C68_box_refuted, C68_both_planes_refuted | C68_planar / C68_spatial characterise the whole set of contacts in a world with portals; C68_planar_overlap, C68_no_portals, and _runs (the set is built for discs and balls). C68_..._only_discs/_only_balls say when the program stops. The refuted theorems record tunnelling, self contact, scripted discs, boxes and bodies reaching both planes of a portal. |
| C69 | proved | C69_apart, C69_overlapping, C69_contacts, C69_scene, C69_touching_refuted | For all box poses and sizes over the reals: no contact without a common point, one to eight with a common point inside; common unit normal, overlap along it least along all face normals and within 5% of the least along any direction (separating axis theorem proved for zonotopes); contact points characterised as sets of points (clipping proved, deepest point kept, span kept), or the edge pair. C69_scene places the test in the simulation. C69_touching_refuted: boxes sharing only an edge. Rounding errors are not modelled; the epsilon tests of the code are. |
| C70 | proved | C70_impact_problem, C70_friction_problem, C70_impact, C70_disc, C70_dissipation, C70_impact_ql, C70_interval_ql, C70_sampled_ql, C70_fallback, C70_fallback_friction, C70_solver_names, C70_working_space, C70_working_space_refuted, C70_ql_errors_refuted, C70_not_run_refuted, C70_solveQP_refuted, C70_missing_diagonal_refuted, C70_no_multipliers_refuted, C70_large_bound_refuted | Ipopt and QL enter as arbitrary functions that report success only at first-order points; friction with Ipopt is proved for exact solutions, impacts for any tolerance. |
| C71 | proved | C71_session, C71_deviations, C71_ends, C71_reset, C71_defined, C71_movie, C71_frame_names, C71_rate, C71_second_scene_refuted, C71_script_memory_refuted, C71_start_deviation_refuted, C71_first_frame_refuted, C71_fps_change_refuted, C71_reset_movie_refuted, C71_start_callback_refuted, C71_replaced_circle_refuted, C71_box_refuted, C71_zero_steps_refuted | The simulator, the scripts and the colour generator are arbitrary; floating point values of measurements are reals. Hypotheses on scripts and the excepted cases are each shown necessary by a _refuted theorem. |
| C72 | proved | C72_plane_picture, C72_plane_touched, C72_plane_drag, C72_plane_wheel, C72_plane_zoom, C72_plane_resize, C72_plane_center_balls, C72_plane_center_bodies, C72_plane_locked, C72_plane_opened, C72_ball_open_refuted, C72_ball_empty_refuted, C72_rigid, C72_target, C72_upright, C72_projection, C72_orbit, C72_track, C72_dolly, C72_wheel, C72_ortho_drag, C72_ortho_zoom, C72_views, C72_center_perspective, C72_center_orthographic, C72_drawn, C72_locked, C72_export, C72_lock_refuted, C72_open_first_refuted, C72_wide_refuted, C72_tiny_refuted, C72_big_orthographic_refuted | planar and spatial cameras over the reals after any history of sensible events (positive window sizes, boxes that are not a point); FromTwoVectors by its stated properties, with a concrete instance; exceptions are the _refuted theorems; digits lost when settings are printed are not modelled |
| C73 | proved | C73_references, C73_gui_exit, C73_cli_exit, C73_callback, C73_no_script, C73_script_of_the_scene, C73_script_again, C73_not_callable, C73_leak_refuted, C73_cli_exit_refuted, C73_old_callback_refuted, C73_apostrophe_refuted, C73_moves, C73_function_again | for every interpreter and every history of loads and callbacks; the references lost by reloads, the release after shut-down in the command line programs, callbacks left over from an earlier script and directories with an apostrophe are stated as refuted claims |
| C74 | proved | C74_views, C74_errors, C74_proper_scripts, C74_kept_array_refuted, C74_lost_write_refuted, C74_insertion_refuted, C74_wrong_callback_refuted, C74_timestep_refuted | Whole runs with all six callbacks, for every script, integrator and number of steps; the promise is a small interpreter on the numbers alone and the model runs on a heap. Excepted uses of arrays are shown to fail in the refuted theorems. |

## What Print Assumptions lists for each theorem

**No axioms** (closed under the global context) — 235 theorems:
C01_arithmetic_defined, C01_equality_decides_value, C01_history_lowest_terms, C01_int_min_undefined_refuted, C01_make_defined, C01_make_lowest_terms, C01_zero_denominator_refuted, C02_history_exact, C02_make_exact, C02_mixed_exact, C02_queries, C03_decimal_accepted, C03_decimal_exact, C03_fraction_accepted, C03_fraction_exact, C03_fraction_out_of_range_rejected, C03_long_fraction_undefined_refuted, C03_malformed_accepted_refuted, C03_negative_below_one_refuted, C03_trailing_text_ignored_refuted, C04_print_parse, C05_num_right, C05_pad, C05_pieces_unique, C05_remove_white_space, C05_split_last, C05_tokenize, C05_tokenize_empty_refuted, C05_trim, C05_trim_right, C05_white_space, C06_ball_round_trip, C06_penalty_force_not_restored_refuted, C07_rb2d_round_trip, C08_rb3d_round_trip, C08_staple_terminates, C09_ball_file_truncated, C09_ball_injective, C09_ball_truncated, C09_rb2d_file_truncated, C09_rb2d_injective, C09_rb2d_truncated, C09_rb3d_file_truncated, C09_rb3d_injective, C09_rb3d_truncated, C10_ball_known_resumes, C10_ball_unknown_terminates, C10_ball_unwritable_terminates, C10_not_resumable_refuted, C10_rb2d_known_resumes, C10_rb2d_unknown_terminates, C10_rb2d_unwritable_terminates, C10_rb3d_known_resumes, C10_rb3d_unknown_terminates, C10_rb3d_unwritable_terminates, C11_ball_resume, C11_final_step_snapshot_refuted, C11_rb2d_resume, C11_rb3d_resume, C12_schedule, C13_digits, C13_force_names_distinct, C13_frame_number, C13_names_distinct, C13_names_sort, C13_no_end_time_refuted, C13_steps_per_save_complete, C13_steps_per_save_sound, C13_width_suffices, C14_grid2_complete, C14_grid3_complete, C15_all_pairs2, C15_all_pairs3, C15_grid2_exact, C15_grid3_exact, C15_key_wrap_self_pair_refuted, C15_no_boxes_refuted, C15_trial_exact, C18_flag, C21_ball_cache_is_a_map, C21_ball_sorted, C21_rb2_cache_is_a_map, C21_rb2_sorted, C21_rb3_cache_is_a_map, C21_rb3_sorted, C21_unsupported, C22_cold_start, C22_impact_map, C22_normal_mode, C22_planar_friction_mode, C22_unsupported_contacts, C25_first_per_pair, C25_order, C25_second_portal_refuted, C25_symmetric, C28_direct_call_unchecked, C28_naming_twice, C28_remove, C29_geometry_in_use_refuted, C29_unused_geometry, C39_no_iterations_refuted, C42_dense_matrix_round_trip, C42_dense_vector_round_trip, C42_extract_out_of_range, C42_sparse_round_trip, C42_sparse_truncated, C44_sphere_body_refuted, C46_coefficients_reach_the_solver, C46_end_of_simulation, C46_iterations, C46_masses_are_current, C46_polite_scripts_are_safe, C46_restitution_reaches_the_operator, C46_run, C46_step, C47_ball_file_refused_by_rb2d, C47_ball_file_refused_by_rb3d, C47_rb2d_file_refused_by_ball, C47_rb2d_file_refused_by_rb3d, C47_rb3d_file_refused_by_ball, C47_rb3d_file_refused_by_rb2d, C48_ball_overwrite_refuted, C48_completed_snapshots_survive, C48_rb2d_overwrite_refuted, C48_rb3d_overwrite_refuted, C55_no_contact, C55_no_contact_stabilized, C55_no_contact_symplectic, C60_accepted_scenes, C60_balls, C60_blank_attribute_refuted, C60_camera, C60_camera_settings, C60_element_order, C60_exit_only, C60_fixed_word_refuted, C60_flags, C60_forces_and_drums, C60_integers, C60_line_feeds_refuted, C60_masses_refuted, C60_not_a_number, C60_number_lists, C60_numbers, C60_planes_and_portals, C60_portal_motion, C60_response, C60_settings, C60_time_step_refuted, C60_unchecked_settings_refuted, C60_undefined_only, C60_unsigned, C60_words, C61_accepted_scenes, C61_bodies, C61_camera_settings, C61_components, C61_element_order, C61_empty_vector_refuted, C61_exit_only, C61_infinite_refuted, C61_no_integrator_refuted, C61_planes_and_portals, C61_portal_motion, C61_response, C61_settings, C61_staggered_refuted, C61_undefined_only, C62_accepted_scenes, C62_bodies, C62_density_refuted, C62_element_order, C62_exit_only, C62_export_refuted, C62_exported_bodies, C62_fps_refuted, C62_geo_idx_refuted, C62_geometry_numbers, C62_grr_example_refuted, C62_in_range, C62_multiplier_entries, C62_planes_and_portals, C62_portal_multipliers, C62_renderer_index_refuted, C62_renderers, C62_response, C62_settings, C62_undefined_only, C62_zero_normal_refuted, C65_defined, C65_huge_refuted, C65_kept, C65_long_refuted, C65_nested_refuted, C65_no_overwrite, C65_open, C65_read_back, C65_reads_what_is_there, C65_scalar_read_back, C65_sparse_read_back, C65_text, C65_text_refuted, C65_uncompressed_refuted, C65_writable_exactly, C66_ball_scene_refuted, C66_defined, C66_determines3, C66_plane_velocity_refuted, C66_portals3_refuted, C66_read3, C66_returns2, C66_returns3, C66_returnsb, C66_staple_refuted, C66_state2, C66_state3, C66_stateb, C70_solver_names, C70_working_space, C70_working_space_refuted, C71_frame_names, C73_apostrophe_refuted, C73_callback, C73_cli_exit, C73_cli_exit_refuted, C73_function_again, C73_gui_exit, C73_leak_refuted, C73_moves, C73_no_script, C73_not_callable, C73_old_callback_refuted, C73_references, C73_script_again, C73_script_of_the_scene

**`ClassicalDedekindReals.sig_forall_dec`** — 18 theorems:
C22_deleted_body_refuted, C22_two_point_contact_refuted, C41_grr_velocity, C42_entries_unique, C42_extract_columns, C45_ball_momenta, C45_rb2_momenta, C46_iteration_in_friction_hook_refuted, C46_state_in_friction_hook_refuted, C70_ql_errors_refuted, C74_errors, C74_insertion_refuted, C74_kept_array_refuted, C74_lost_write_refuted, C74_proper_scripts, C74_timestep_refuted, C74_views, C74_wrong_callback_refuted

**`ClassicalDedekindReals.sig_forall_dec`, `FunctionalExtensionality.functional_extensionality_dep`** — 152 theorems:
C17_ball_gauss_seidel, C17_ball_impact, C17_ball_obstacle_refuted, C17_ball_terminates, C17_ball_terminates_inelastic, C17_warm_start_refuted, C17_zero_tolerance_refuted, C18_ball, C20_ball_mass, C20_gr, C20_gr_returns, C20_grr, C20_grr_blend, C20_lcp_step, C20_one_coefficient, C20_rb2_mass, C20_rb3_mass, C23_box_test2, C23_box_test3, C23_enforce_sliding, C23_enforce_torus, C23_fixed, C23_fixed_defined_refuted, C23_sliding, C23_sliding_b, C23_sliding_distance, C23_sliding_round_trip, C23_velocity_of_image, C23_velocity_turned_refuted, C24_all_portals, C24_history, C24_too_late_refuted, C24_unbounded_refuted, C24_update, C26_rb2_euler, C26_rb2_verlet, C27_rb2_verlet_reversible, C31_inverse, C31_planar, C31_recomputed, C31_set_state, C31_symmetric, C32_exponential_map, C32_exponential_map_moves_scripted_bodies_refuted, C33_moser_veselov_equation, C34_ball_state, C34_box3, C34_circle, C34_mesh, C34_rb3_state, C34_sphere, C34_staple, C34_staple_refuted, C34_swept_circle, C37_segments, C37_short_segments_refuted, C37_staples, C38_in_box, C38_nearest, C39_projection, C40_min_map, C40_min_map_tolerance, C41_best_pass, C41_contact_force, C41_friction_cone_refuted, C41_friction_of_a_pass, C41_grr_success_refuted, C41_honest, C41_non_penetrating, C42_identity, C42_identity_refuted, C42_symmetric, C43_bad_ball_exits, C43_history, C43_masses_inverse, C43_push, C44_ball, C44_forcing, C44_rb2, C45_ball_kinetic, C45_rb2_force_is_minus_gradient, C45_rb2_gravity_potential, C45_rb2_kinetic, C45_rb2_verlet_energy, C45_rb3_angular_momentum, C45_rb3_force, C45_rb3_kinetic, C45_rb3_momentum, C45_rb3_potential, C49_ball, C50_finishes, C51_ball_plane_gap, C51_ball_planes, C51_balls, C51_disc_plane_gap, C51_discs, C51_plane_depth, C51_rb3_cylinders_box_refuted, C51_rb3_planes, C51_rb3_planes_staple_refuted, C52_boundary, C52_staple_refuted, C54_energy, C54_minimum, C54_mixed_restitution_refuted, C57_ball, C57_ball_others, C57_reported_impulses_act, C59_exponential_euler_refuted, C64_field, C67_accounts_ball, C67_components, C67_impacts_account_ball, C67_impacts_ball, C67_sampled_friction_refuted, C67_written_ball, C70_fallback, C70_friction_problem, C70_impact, C70_impact_problem, C70_impact_ql, C70_interval_ql, C70_missing_diagonal_refuted, C70_sampled_ql, C71_box_refuted, C71_defined, C71_deviations, C71_ends, C71_first_frame_refuted, C71_fps_change_refuted, C71_movie, C71_rate, C71_replaced_circle_refuted, C71_reset, C71_reset_movie_refuted, C71_script_memory_refuted, C71_second_scene_refuted, C71_session, C71_start_callback_refuted, C71_start_deviation_refuted, C71_zero_steps_refuted, C72_ball_empty_refuted, C72_ball_open_refuted, C72_plane_center_balls, C72_plane_drag, C72_plane_locked, C72_plane_opened, C72_plane_picture, C72_plane_resize, C72_plane_touched, C72_plane_wheel, C72_plane_zoom

**`ClassicalDedekindReals.sig_forall_dec`, `ClassicalDedekindReals.sig_not_dec`, `FunctionalExtensionality.functional_extensionality_dep`** — 197 theorems:
C16_active_set_exact, C16_ccd_first_touch, C16_no_division_by_zero, C17_sphere_gauss_seidel, C17_sphere_impact, C17_sphere_terminates, C18_rb2, C18_rb3, C19_ball_impact, C19_flag, C19_rb2_friction, C19_rb2_impact, C19_rb3_friction, C19_rb3_impact, C22_from_two_vectors, C22_spatial_friction_mode, C23_enforce_space, C23_flipped_normal_refuted, C23_space, C26_rb3_gravity, C28_add, C28_completed_history, C28_history, C28_nan_body_refuted, C30_axis_checked, C30_index_equal_to_count_refuted, C30_invalid_index_exits, C30_scripts_safe, C30_valid_index, C30_wrap_refuted, C31_steps, C32_decomposition_exists, C32_exponential_euler, C32_exponential_euler_bodies, C32_moser_veselov, C32_quaternion_round_trip, C32_split_hamiltonian, C32_steps, C33_moser_veselov, C33_moser_veselov_step, C33_scripted_body, C33_split_hamiltonian, C33_split_principal_axis, C33_split_reversible, C33_split_step, C34_bounding_sphere, C34_box, C34_box_end_position, C34_box_sweep_refuted, C34_rb2_state, C35_centre_outside, C35_contact, C35_exact, C36_box_box, C38_box_sphere, C39_best_iterate, C39_ends, C39_larger_limit, C39_momentum, C39_parallel_walls_refuted, C40_bound_constrained, C40_bound_constrained_refuted, C40_disc, C40_disc_refuted, C40_equivalent, C40_fischer_burmeister, C44_disk, C44_disk_angles, C44_rb3, C44_rb3_total, C44_spatial, C49_rb2, C49_rb2_moving_plane_refuted, C49_rb3, C49_rb3_moving_kinematic_refuted, C49_rb3_moving_plane_refuted, C49_rb3_total, C50_contact_velocity, C50_contacts, C50_self_contact_refuted, C50_tunnelling_refuted, C51_ball_cylinder_gap, C51_ball_drum_large_refuted, C51_ball_drums, C51_balls_depth, C51_balls_gap, C51_circle_contact, C51_cylinder_normal, C51_discs_depth, C51_discs_gap, C51_rb2_planes, C51_rb3_cylinders, C51_sphere_contact, C51_sphere_cylinder_large_refuted, C51_sphere_sphere, C51_tele_circle_contact, C51_tele_sphere_contact, C54_impact, C54_pushes, C56_ball_near_cube_refuted, C56_fast_balls_refuted, C56_fast_disc_box_refuted, C56_flat_staples_refuted, C56_planar_contacts, C56_planar_count, C56_planar_exact, C56_planar_runs, C56_scripted_disc_near_box_refuted, C56_spatial_balls, C56_spatial_exact, C56_spatial_runs, C57_rigid_2d, C57_rigid_2d_others, C57_rigid_3d, C57_rigid_3d_others, C57_sphere_body_refuted, C58_planar_angular, C58_planar_momentum, C58_planar_symplectic_refuted, C58_spatial_angular, C58_spatial_momentum, C59_planar_energy, C59_tumbling_refuted, C63_integral_unique, C63_staple_corners, C64_accuracy, C64_contacts, C64_corners, C64_detects, C64_exchange, C64_far_corner_refuted, C64_far_face_normal_refuted, C64_flat, C64_huge_grid_refuted, C64_level_refuted, C64_moved, C64_narrow_phase, C64_undefined_exactly, C64_unit_normal, C67_accounts_2d, C67_accounts_3d, C67_impacts_2d, C67_impacts_3d, C67_impacts_account_2d, C67_impacts_account_3d, C67_portal_torque_refuted, C67_returns, C67_scripted_refuted, C67_stops_refuted, C67_where, C67_which_obstacle_refuted, C67_written_2d, C67_written_3d, C68_both_planes_refuted, C68_box_refuted, C68_no_portals, C68_planar, C68_planar_only_discs, C68_planar_overlap, C68_planar_runs, C68_scripted_disc_refuted, C68_self_contact_refuted, C68_spatial, C68_spatial_only_balls, C68_spatial_runs, C68_tunnelling_refuted, C69_apart, C69_contacts, C69_overlapping, C69_touching_refuted, C70_disc, C70_dissipation, C70_fallback_friction, C70_large_bound_refuted, C70_no_multipliers_refuted, C70_not_run_refuted, C70_solveQP_refuted, C72_big_orthographic_refuted, C72_center_orthographic, C72_dolly, C72_drawn, C72_export, C72_lock_refuted, C72_locked, C72_open_first_refuted, C72_orbit, C72_ortho_drag, C72_ortho_zoom, C72_plane_center_bodies, C72_projection, C72_rigid, C72_target, C72_tiny_refuted, C72_track, C72_upright, C72_views, C72_wheel

**`ClassicalDedekindReals.sig_forall_dec`, `Classical_Prop.classic`, `FunctionalExtensionality.functional_extensionality_dep`** — 1 theorems:
C31_kinetic_energy_positive

**`ClassicalDedekindReals.sig_forall_dec`, `ClassicalDedekindReals.sig_not_dec`, `Classical_Prop.classic`, `FunctionalExtensionality.functional_extensionality_dep`** — 35 theorems:
C14_grid2_complete_binary64, C14_grid3_complete_binary64, C15_grid2_sound_binary64, C15_grid3_sound_binary64, C15_rounding_self_pair_refuted, C26_ball_euler, C26_ball_verlet, C26_fixed_ball_refuted, C27_ball_angular_momentum, C27_ball_euler_momentum, C27_ball_euler_torque, C27_ball_verlet_momentum, C27_ball_verlet_reversible, C27_force_defined, C45_ball_euler_energy, C45_ball_force_is_minus_gradient, C45_ball_gravity_potential, C45_ball_verlet_energy, C53_overlap_volume, C58_ball_angular, C58_ball_momentum, C59_ball_energy, C59_spatial_energy, C59_spatial_exponential, C63_box, C63_circle, C63_mesh, C63_plane_box, C63_sphere, C63_staple_inertia_refuted, C63_staple_mass, C63_staple_unit, C69_scene, C72_center_perspective, C72_wide_refuted

