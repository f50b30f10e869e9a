{"id": "C01", "title": "Rational numbers stay in lowest terms", "statement": "Every Rational built with the public constructors and any sequence of +=, -=, *=, /= with non-zero denominators is stored with a positive denominator that shares no factor with its numerator, so operator== holds exactly when the two values are the same number. If 64-bit arithmetic would overflow, the behaviour is undefined; inputs that satisfy a stated size bound never reach that.", "quantifier": "all numerators and denominators (den != 0), all finite sequences of operations", "why_tests_cant": "the operand space is unbounded and canonical form is an invariant over arbitrary operation histories", "anchors": ["scisim/Math/Rational.h: Rational, simplify, GCD, operator+=, operator-=, operator*=, operator/=, operator=="]}
{"id": "C02", "title": "Rational arithmetic is exact", "statement": "For all rationals with non-zero denominators, +=, -=, *=, /= (by a non-zero value) and the mixed integer operators return the rational whose value is the exact sum, difference, product or quotient, and positive / nonNegative / isInteger answer the corresponding question about the value.", "quantifier": "all pairs of rationals with non-zero denominators", "why_tests_cant": "finitely many literals cannot establish field identities", "anchors": ["scisim/Math/Rational.h: operators, positive, nonNegative, isInteger"]}
{"id": "C03", "title": "Time steps given as text are read exactly", "statement": "extractFromString on a decimal ('D.F') or on a fraction ('P/Q') yields exactly the rational that the text denotes; text it rejects yields false. The code violates this for '-0.F' (the sign is lost) and accepts malformed text such as '1.2.3' and '1/2/3'; both are stated as refuted theorems.", "quantifier": "all digit strings, of any length, with optional sign", "why_tests_cant": "the input language is infinite and the failing cases depend on a sign/zero interaction easy to miss by sampling", "anchors": ["scisim/Math/Rational.h: extractFromString", "scisim/StringUtilities.cpp: splitAtLastCharacterOccurence, trimCharacterRight, removeWhiteSpace"]}
{"id": "C04", "title": "Printing then parsing a rational is the identity", "statement": "Streaming a Rational with operator<< and reading the text back with extractFromString gives an equal Rational.", "quantifier": "all canonical rationals", "why_tests_cant": "needs every numerator/denominator pair", "anchors": ["scisim/Math/Rational.h: operator<<, extractFromString"]}
{"id": "C05", "title": "String tokenising loses nothing", "statement": "For every string and delimiter, tokenize returns the delimiter-free pieces in order such that joining them with the delimiter restores the string; on the empty string the call is undefined behaviour. splitAtLastCharacterOccurence splits at the last delimiter and rejoining restores the input. trim removes exactly the leading and trailing white space.", "quantifier": "all strings, all delimiter characters", "why_tests_cant": "the property ranges over every string", "anchors": ["scisim/StringUtilities.cpp: tokenize, splitAtLastCharacterOccurence, trim, trimFront, trimBack, removeWhiteSpace, padWithZeros, trimCharacterRight"]}
{"id": "C06", "title": "Ball2D snapshots restore the exact simulation state", "statement": "Deserialising what Ball2DSim::serialize wrote returns the identical state (positions, velocities, radii, masses, fixed flags, forces, planes, drums, portals and cached contact impulses) and consumes exactly the bytes that were written, whatever follows them in the stream. The penalty force is the exception: a state holding one is written but cannot be read back.", "quantifier": "all ball states: any number of balls, forces, planes, drums, portals and cache entries; any trailing bytes", "why_tests_cant": "the state space is unbounded; a missing or reordered field only shows on particular states", "anchors": ["ball2d/Ball2DSim.cpp: serialize, deserialize", "ball2d/Ball2DState.cpp: serialize, deserialize", "ball2d/ConstraintCache.cpp: serialize, deserialize", "scisim/Utilities.h", "scisim/Math/MathUtilities.h"]}
{"id": "C07", "title": "RigidBody2D snapshots restore the exact simulation state", "statement": "Deserialising what RigidBody2DSim::serialize wrote returns the identical state and consumes exactly the bytes written, whatever follows.", "quantifier": "all 2D rigid body states and trailing bytes", "why_tests_cant": "unbounded state space", "anchors": ["rigidbody2d/RigidBody2DSim.cpp: serialize, deserialize", "rigidbody2d/RigidBody2DState.cpp: serialize, deserialize", "rigidbody2d/ConstraintCache.cpp"]}
{"id": "C08", "title": "RigidBody3D snapshots restore the exact simulation state", "statement": "Deserialising what RigidBody3DSim::serialize wrote returns the identical state and consumes exactly the bytes written, for all states without staples; a state holding a staple terminates the program when written.", "quantifier": "all 3D rigid body states and trailing bytes", "why_tests_cant": "unbounded state space", "anchors": ["rigidbody3d/RigidBody3DSim.cpp: serialize, deserialize", "rigidbody3d/RigidBody3DState.cpp: serialize, deserialize", "rigidbody3d/ConstraintCache.cpp", "rigidbody3d/Geometry"]}
{"id": "C09", "title": "A truncated snapshot is never taken for a complete one", "statement": "If a snapshot file is cut at any byte before its end (for instance because the process died while writing), reading it runs past the end of the data: no strict prefix of a snapshot decodes to a state. Two different states never have the same snapshot, nor is one the prefix of the other.", "quantifier": "all states and all crash points (every prefix length)", "why_tests_cant": "crash points times states is unbounded", "anchors": ["scisim/Utilities.h: deserialize", "scisim/StringUtilities.cpp: deserialize", "ball2dcli/ball2d_cli.cpp: serializeSystem, deserializeSystem"]}
{"id": "C10", "title": "Which solver configurations can be resumed", "statement": "Writing the integrator, impact operator, friction solver and impact-friction map names to a snapshot and reading them back reconstructs the same configuration with the same parameters, for exactly the set of configurations the deserialisers know; every other configuration terminates with an error on resume instead of silently becoming a different one. ball2d symplectic Euler, a null integrator in 2D, exponential Euler in 3D and the one-pass friction solver are written but cannot be resumed; the Jacobi and the variational-penalty LCP operator end the program when written.", "quantifier": "all configurations and all parameter values, all trailing bytes", "why_tests_cant": "finite names but unbounded parameters, nested operators and stream contents", "anchors": ["scisim/ConstrainedMaps/ConstrainedMapUtilities.cpp", "ball2d/Ball2DUtilities.cpp", "rigidbody2d/RigidBody2DUtilities.cpp", "rigidbody3d/RigidBody3DUtilities.cpp"]}
{"id": "C11", "title": "Resuming from a snapshot continues the same run", "statement": "For every snapshot written during a run of the ball2d command line tool, a new process started from that snapshot writes the same output frames (same names, same contents) as the original run wrote from that point on, ends at the same step, and the frame at the resume point is rewritten identically.", "quantifier": "all initial systems, time steps, end times, output frequencies and snapshot points", "why_tests_cant": "quantifies over every resume point of every run", "anchors": ["ball2dcli/ball2d_cli.cpp: executeSimLoop, stepSystem, exportConfigurationData, serializeSystem, deserializeSystem"]}
{"id": "C12", "title": "Frames are exported on schedule", "statement": "A run of the command line tool exports frame k after exactly k * steps_per_save steps, exports frames 0,1,2,... with no gap or repeat, and stops at the first step whose time reaches the end time.", "quantifier": "all time steps, end times, output frequencies, any number of steps", "why_tests_cant": "the loop length is unbounded", "anchors": ["ball2dcli/ball2d_cli.cpp: executeSimLoop, stepSystem, exportConfigurationData, main"]}
{"id": "C13", "title": "Output file names sort in time order", "statement": "The zero-padded frame numbers used in output file names have the fixed width whenever the frame number fits in it, are distinct for distinct frames and sort lexicographically in frame order; the width the tool computes from the end time suffices for every frame of the run.", "quantifier": "all frame numbers and widths", "why_tests_cant": "ranges over all naturals", "anchors": ["ball2dcli/ball2d_cli.cpp: generateOutputConfigurationDataFileName, main", "scisim/Math/MathUtilities.cpp: computeNumDigits", "scisim/StringUtilities.cpp: padWithZeros"]}
{"id": "C14", "title": "Broad phase never misses an overlap", "statement": "For every list of axis-aligned boxes, every pair of boxes that intersect (touching counts) is in the set returned by getPotentialOverlaps, for the 2D ball, 2D rigid body and 3D grids, also when the 32-bit cell keys wrap around.", "quantifier": "all finite lists of boxes of any size and position", "why_tests_cant": "a missed pair depends on cell boundaries, rounding and hash collisions", "anchors": ["ball2d/SpatialGridDetector.cpp: getPotentialOverlaps", "rigidbody2d/SpatialGrid.cpp", "rigidbody3d/SpatialGridDetector.cpp"]}
{"id": "C15", "title": "Broad phase reports only real overlaps, each once", "statement": "Every pair returned by getPotentialOverlaps is ordered (smaller index first) and its two boxes intersect; the returned set equals that of the all-pairs reference.", "quantifier": "all finite lists of boxes", "why_tests_cant": "same as C14", "anchors": ["ball2d/SpatialGridDetector.cpp: getPotentialOverlaps, getPotentialOverlapsAllPairs", "rigidbody2d/SpatialGrid.cpp", "rigidbody3d/SpatialGridDetector.cpp"]}
{"id": "C16", "title": "Continuous ball-ball collision detection is exact", "statement": "For two balls moving along straight lines between their start and end positions, the continuous test reports a collision exactly when at some time in [0,1] they are at distance at most the sum of radii (up to the documented initial-overlap rule), and the time it returns is the first such time.", "quantifier": "all start/end positions and non-negative radii, over the reals", "why_tests_cant": "a one-parameter family per input, and the inputs form a continuum", "anchors": ["scisim/CollisionDetection/CollisionDetectionUtilities.cpp: ballBallCCDCollisionHappens"]}
{"id": "C17", "title": "Resolving an impact is physically consistent", "statement": "For a ball-ball contact, resolving the impact reverses the normal relative velocity scaled by the coefficient of restitution, leaves tangential relative velocity and total momentum unchanged, and never increases kinetic energy when 0 <= CoR <= 1. A sweep of the Gauss-Seidel operator over any contact list never increases kinetic energy and applies only non-negative (repulsive) impulses.", "quantifier": "all masses > 0, unit normals, velocities, CoR in [0,1], any contact list and number of sweeps", "why_tests_cant": "algebraic identities over a continuum; unbounded iteration", "anchors": ["ball2d/Constraints/BallBallConstraint.cpp: resolveImpact", "scisim/ConstrainedMaps/ImpactMaps/GaussSeidelOperator.cpp: flow"]}
{"id": "C18", "title": "Body-body contacts conserve linear momentum", "statement": "Any impulse applied along the contact normal or friction directions produced by a constraint that claims conservesTranslationalMomentum leaves the total momentum of the system unchanged, for ball, 2D rigid body and 3D rigid body contacts.", "quantifier": "all configurations, contact points, normals, tangents and impulse magnitudes; any number of contacts", "why_tests_cant": "holds only as an identity over all impulses", "anchors": ["ball2d/Constraints/BallBallConstraint.cpp", "rigidbody2d/CircleCircleConstraint.cpp", "rigidbody2d/BodyBodyConstraint.cpp", "rigidbody3d/Constraints/BodyBodyConstraint.cpp", "rigidbody3d/Constraints/SphereSphereConstraint.cpp"]}
{"id": "C19", "title": "Contacts conserve angular momentum as advertised", "statement": "Any impulse applied by a constraint that claims conservesAngularMomentumUnderImpact(AndFriction) leaves the total angular momentum unchanged when both lever arms are measured from a common contact point.", "quantifier": "all configurations, contact points, normals, tangents and impulses", "why_tests_cant": "identity over a continuum", "anchors": ["scisim/Constraints/Constraint.h: conservesAngularMomentumUnderImpact", "rigidbody2d/BodyBodyConstraint.cpp", "rigidbody3d/Constraints/BodyBodyConstraint.cpp"]}
{"id": "C20", "title": "Generalised reflection resolves all contacts", "statement": "The GR and GRR operators return non-negative impulses, the returned velocity is v0 plus the impulses, kinetic energy does not increase when each inner solve succeeds, and on return every contact separates (up to the stated tolerance).", "quantifier": "all contact sets, masses, velocities, CoR; any number of inner iterations", "why_tests_cant": "unbounded iteration over a continuum", "anchors": ["scisim/ConstrainedMaps/ImpactMaps/GROperator.cpp: flow", "scisim/ConstrainedMaps/ImpactMaps/GRROperator.cpp: flow", "scisim/ConstrainedMaps/ImpactMaps/ImpactOperatorUtilities.cpp"]}
{"id": "C21", "title": "The contact impulse cache is a map", "statement": "After any sequence of cache, lookup and clear calls, a lookup returns the impulse stored for that contact since the last clear, or zero if there is none; a contact is identified by its kind and its pair of bodies in either order, or its body and static object; empty() answers whether anything was stored since the last clear. Unsupported contact kinds terminate the program.", "quantifier": "all histories of calls, all contact kinds and indices, in ball2d, rigidbody2d and rigidbody3d", "why_tests_cant": "histories are unbounded", "anchors": ["ball2d/ConstraintCache.cpp", "rigidbody2d/ConstraintCache.cpp", "rigidbody3d/ConstraintCache.cpp"]}
{"id": "C22", "title": "Warm-started impulses belong to the same contact", "statement": "With impulse caching on, the initial impulses of a step are, contact by contact, the impulses the previous step computed for the same contact, and zero for new contacts. This fails for two 2D boxes touching at two points, where both contacts share one cache entry.", "quantifier": "all pairs of consecutive active sets", "why_tests_cant": "depends on the whole history of contacts", "anchors": ["scisim/ConstrainedMaps/GeometricImpactFrictionMap.cpp: initializeImpulses, cacheImpulses", "rigidbody2d/ConstraintCache.cpp"]}
{"id": "C23", "title": "Portals are rigid and invertible", "statement": "Teleporting a point through a portal preserves distances, sends points behind one plane to in front of the other at the mirrored depth, and going through one plane and back through the other returns to the start, for the 2D ball, 2D rigid body (fixed) and 3D portals; for sliding (Lees-Edwards) portals the tangential coordinate always lands in [-bound, bound].", "quantifier": "all points, planes, offsets, bounds > 0", "why_tests_cant": "continuum of points", "anchors": ["ball2d/Portals/PlanarPortal.cpp", "rigidbody2d/PlanarPortal.cpp", "rigidbody3d/Portals/PlanarPortal.cpp"]}
{"id": "C24", "title": "Sliding portals stay within their bounds and depend only on time", "statement": "updateMovingPortals places the portal offset within [-bound, bound], congruent to v*t modulo the period, regardless of previous updates; for a portal without bounds the computation casts a non-finite value to int, which is undefined behaviour.", "quantifier": "all velocities, times and bounds", "why_tests_cant": "continuum; independence from history", "anchors": ["ball2d/Portals/PlanarPortal.cpp: updateMovingPortals", "rigidbody2d/PlanarPortal.cpp: updateMovingPortals"]}
{"id": "C25", "title": "Teleported contacts are recorded once per pair", "statement": "The set of teleported collisions treats (i,j) and (j,i) with swapped portal data as the same contact, its ordering is a strict weak order, so at most one teleported contact is kept per unordered pair of bodies; a second contact of the same pair through another portal is dropped.", "quantifier": "all index pairs and insertion sequences", "why_tests_cant": "set behaviour over arbitrary insertion orders", "anchors": ["ball2d/Portals/PlanarPortal.cpp: TeleportedCollision", "rigidbody2d/PlanarPortal.cpp: TeleportedCollision", "rigidbody3d/Portals/PlanarPortal.cpp: TeleportedCollision"]}
{"id": "C26", "title": "Integrators are exact under uniform gravity", "statement": "Over any number of steps under constant gravity the Verlet integrators follow the exact parabola and velocity line, symplectic Euler follows its closed form, and bodies marked fixed (2D rigid bodies) move with their prescribed velocity unaffected by forces.", "quantifier": "all initial states, time steps and step counts", "why_tests_cant": "induction over the number of steps", "anchors": ["ball2d/VerletMap.cpp", "ball2d/SymplecticEulerMap.cpp", "rigidbody2d/VerletMap.cpp", "rigidbody2d/SymplecticEulerMap.cpp"]}
{"id": "C27", "title": "Verlet integration is time reversible and total momentum follows the forces", "statement": "A Verlet step followed by a step with the velocity negated returns to the start (positions and negated velocities) for position-only forces; with zero net force, total momentum is unchanged by any integrator step.", "quantifier": "all states and position-dependent forces", "why_tests_cant": "continuum; forces are arbitrary functions", "anchors": ["ball2d/VerletMap.cpp: flow", "rigidbody2d/VerletMap.cpp: flow"]}
{"id": "C28", "title": "Deleting and adding bodies keeps the rest intact", "statement": "RigidBody2DState::removeBodies keeps exactly the bodies not named, in order, with their positions, velocities, masses, inertias, fixed flags and geometry; naming a body twice is harmless. addBody appends one body and changes no other. After any sequence of such calls all per-body arrays agree in length and M * Minv is the identity.", "quantifier": "all states, index lists and call sequences", "why_tests_cant": "in-place compaction has unbounded index patterns", "anchors": ["rigidbody2d/RigidBody2DState.cpp: addBody, removeBodies, checkStateConsistency"]}
{"id": "C29", "title": "Deleting geometry keeps references intact", "statement": "removeGeometry of geometry instances no body uses keeps the other instances in order and every body still refers to the same shape; deleting an instance still in use reads an uninitialised index.", "quantifier": "all states and index lists", "why_tests_cant": "index remapping over unbounded lists", "anchors": ["rigidbody2d/RigidBody2DState.cpp: removeGeometry", "rigidbody2d/PythonScripting.cpp: deleteGeometry"]}
{"id": "C30", "title": "Scripting calls validate indices", "statement": "A script call naming a static plane, static cylinder, contact or force by an existing index acts on that one item only; with an index that does not exist it terminates with an error and never touches memory outside the list. The code violates the second half for index == number of items, which passes every check, and for indices of 2^32 and more, which are silently reduced.", "quantifier": "all three simulators' index-taking calls, all item counts and indices, all call sequences", "why_tests_cant": "boundary value among unbounded indices and histories", "anchors": ["ball2d/PythonScripting.cpp: setStaticPlanePosition, setStaticPlaneVelocity, deleteStaticPlane, collisionType, collisionIndices", "rigidbody2d/PythonScripting.cpp: setStaticPlanePosition, setStaticPlaneVelocity, setStaticPlaneNormal, setStaticPlaneAngularVelocity, deleteStaticPlane", "rigidbody3d/PythonScripting.cpp: setStaticPlanePosition, setStaticPlaneVelocity, setStaticCylinderOrientation, setStaticCylinderAngularVelocity, collisionType, collisionIndices, forceType, setGravityForce"]}
{"id": "C31", "title": "Mass and inverse mass stay inverse to each other", "statement": "For every rotation the world-space inertia R I0 R^T and inverse R I0^-1 R^T recomputed after a step are symmetric and inverse to each other, and kinetic energy is positive for non-zero velocity; the same holds for the diagonal 2D matrices.", "quantifier": "all rotations, positive masses and inertias, any number of bodies", "why_tests_cant": "continuum", "anchors": ["rigidbody3d/RigidBody3DState.cpp: updateMandMinv, formWorldSpaceMassMatrix", "rigidbody2d/RigidBody2DState.cpp: generateM, generateMinv", "ball2d/Ball2DState.cpp: createM, createMinv"]}
{"id": "C32", "title": "Orientations remain rotations", "statement": "Each orientation update (split Hamiltonian, discrete Moser-Veselov, exponential Euler) maps a rotation matrix to a rotation matrix (orthonormal, determinant one), for every angular momentum, inertia and step, hence over any number of steps.", "quantifier": "all rotations, momenta, inertias, step sizes and step counts", "why_tests_cant": "invariant over unbounded histories and a continuum", "anchors": ["rigidbody3d/UnconstrainedMaps/SplitHamMap.cpp: flow", "rigidbody3d/UnconstrainedMaps/DMVMap.cpp: solveDMV", "rigidbody3d/UnconstrainedMaps/IntegrationTools.cpp: updateOrientation"]}
{"id": "C33", "title": "Free rotation conserves angular momentum", "statement": "In the absence of forces the split Hamiltonian and discrete Moser-Veselov steps leave each free body's world-space angular momentum and linear momentum unchanged. A kinematically scripted body with non-zero velocity however comes out with its momentum stored as its velocity.", "quantifier": "all states, inertias, step sizes, step counts", "why_tests_cant": "continuum and unbounded steps", "anchors": ["rigidbody3d/UnconstrainedMaps/SplitHamMap.cpp: flow", "rigidbody3d/UnconstrainedMaps/DMVMap.cpp: flow"]}
{"id": "C34", "title": "Bounding boxes contain the bodies", "statement": "computeAABB of circles, boxes (2D and 3D) and spheres contains every point of the body for every position and rotation, and is the smallest such box; the swept circle box contains the circle at every time of a linear motion. The staple's box ignores its thickness and does not contain it; the 2D box's collision box covers only the end position.", "quantifier": "all positions, rotations and sizes", "why_tests_cant": "continuum of points and rotations", "anchors": ["rigidbody2d/BoxGeometry.cpp: computeAABB", "rigidbody2d/CircleGeometry.cpp: computeCollisionAABB", "rigidbody3d/Geometry/RigidBodyBox.cpp: computeAABB", "rigidbody3d/Geometry/RigidBodySphere.cpp", "rigidbody3d/Geometry/RigidBodyStaple.cpp: computeAABB", "ball2d/Ball2DState.cpp: computeBoundingBox"]}
{"id": "C35", "title": "Circle-box contact test is exact", "statement": "The circle-box narrow phase reports contact exactly when the distance from the circle centre to the (rotated) box is at most the radius, and then the returned normal has unit length.", "quantifier": "all positions, rotations, half-widths and radii", "why_tests_cant": "region case analysis over a continuum", "anchors": ["rigidbody2d/CircleBoxTools.cpp: isActive"]}
{"id": "C36", "title": "Box-box contact test is sound", "statement": "The 2D box-box narrow phase returns no contact for boxes that a line parallel to one of their sides separates, and any two boxes for which it returns no contact because of a separating axis are disjoint; the returned normal is a unit vector and every returned point lies on the incident box's face within the reference face's slab.", "quantifier": "all positions, rotations and half-widths", "why_tests_cant": "continuum of configurations", "anchors": ["rigidbody2d/BoxBoxTools.cpp: isActive"]}
{"id": "C37", "title": "Closest points between segments are closest", "statement": "closestPointSegmentSegment returns parameters in [0,1] and the returned squared distance is no larger than that between any two points of the segments, whenever the two segments are longer than the degeneracy threshold; for very short segments treated as points this can fail.", "quantifier": "all pairs of segments and all points on them", "why_tests_cant": "two-parameter minimisation over a continuum", "anchors": ["rigidbody3d/Constraints/CollisionUtilities.cpp: closestPointSegmentSegment"]}
{"id": "C38", "title": "Closest point on a box is closest", "statement": "The closest point to a rotated 3D box computed for sphere-box contact lies in the box and no point of the box is nearer.", "quantifier": "all boxes, rotations and query points", "why_tests_cant": "continuum", "anchors": ["rigidbody3d/Constraints/CollisionUtilities.cpp: computeClosestPointToBox, computeBoxSphereActiveSet"]}
{"id": "C39", "title": "Projected gradient solver returns its best feasible iterate", "statement": "The accelerated projected gradient solver returns a point in the feasible set whose residual is the least among all iterates it visited, and reports success exactly when that residual is within tolerance.", "quantifier": "all quadratic programs, tolerances and iteration limits > 0", "why_tests_cant": "unbounded iteration count, arbitrary data", "anchors": ["scisim/Math/QPSolvers/ProjectionSolvers.h: APGD"]}
{"id": "C40", "title": "Termination residuals certify complementarity", "statement": "The min-map and Fischer-Burmeister residuals used as stopping tests are zero exactly when every impulse and relative velocity is non-negative and one of them vanishes; the friction variants are zero exactly at the bound-constrained optimality conditions. (False for the friction variants: they also vanish when the friction impulse sits at its upper bound, or at the rim of the disc, and pushes the contact along.)", "quantifier": "all vectors of any length", "why_tests_cant": "equivalence over a continuum and any dimension", "anchors": ["scisim/ConstrainedMaps/ImpactMaps/MinMapImpact.cpp", "scisim/ConstrainedMaps/ImpactMaps/FischerBurmeisterImpact.cpp", "scisim/ConstrainedMaps/FrictionMaps/FischerBurmeisterBoundConstrained.cpp", "scisim/ConstrainedMaps/FrictionMaps/FischerBurmeisterSmooth.cpp"]}
{"id": "C41", "title": "Staggered projections report honestly", "statement": "The friction solver's returned velocity equals v0 plus the effect of the returned impact and friction impulses, and success is reported exactly when the residual of the returned impulses is within tolerance, for every behaviour of the inner solvers.", "quantifier": "all inner solver behaviours, tolerances, iteration limits and warm start modes", "why_tests_cant": "inner solvers are arbitrary; iteration is unbounded", "anchors": ["scisim/ConstrainedMaps/StaggeredProjections.cpp: solve"]}
{"id": "C42", "title": "Snapshots of sparse and dense matrices are faithful", "statement": "Writing and reading back a dense vector/matrix or a compressed sparse matrix gives the same matrix, and extracting columns from a sparse matrix gives exactly these columns in the requested order.", "quantifier": "all matrices of any size and sparsity pattern", "why_tests_cant": "unbounded dimensions and patterns", "anchors": ["scisim/Math/MathUtilities.cpp: serialize, deserialize, extractColumns", "scisim/Math/MathUtilities.h"]}
{"id": "C43", "title": "Adding a ball changes nothing else", "statement": "Ball2DState::pushBallBack appends one ball with the given position, velocity, radius, mass and fixed flag and leaves all the others as they were; M and Minv stay diagonal inverses of each other.", "quantifier": "all states and new balls, any sequence of additions", "why_tests_cant": "unbounded histories", "anchors": ["ball2d/Ball2DState.cpp: pushBallBack, setMass"]}
{"id": "C44", "title": "Contact frames are right-handed orthonormal", "statement": "For every unit normal and relative velocity the contact frame computed for a 2D or 3D contact is orthonormal and right-handed with the normal first, including when the relative velocity is zero or parallel to the normal.", "quantifier": "all unit normals and velocities", "why_tests_cant": "degenerate directions form a measure-zero set tests miss", "anchors": ["rigidbody3d/Constraints/BodyBodyConstraint.cpp: computeContactBasis", "rigidbody3d/Constraints/FrictionUtilities.cpp: orthogonalVector", "rigidbody2d/CircleCircleConstraint.cpp: computeContactBasis", "scisim/Constraints/Constraint.cpp: computeBasis"]}
{"id": "C45", "title": "Reported energies and momenta match the state", "statement": "computeKineticEnergy, potential energy, total momentum and total angular momentum equal the textbook sums over all bodies; the gravity force is minus the gradient of the gravity potential, and momentum is additive over bodies.", "quantifier": "all states with any number of bodies", "why_tests_cant": "unbounded number of bodies", "anchors": ["ball2d/Ball2DState.cpp: computeKineticEnergy, computeMomentum, computeAngularMomentum", "ball2d/Forces/Ball2DGravityForce.cpp", "rigidbody2d/RigidBody2DSim.cpp: computeTotalMomentum, computeTotalAngularMomentum"]}
{"id": "C46", "title": "Script callbacks run in order every step", "statement": "In every run, each step of a rigid body simulation calls the start-of-step hook, then at most one friction-coefficient and one restitution-coefficient hook, then the end-of-step hook, with the same iteration number, and iteration numbers increase by one.", "quantifier": "all runs, integrators, contact histories", "why_tests_cant": "unbounded histories", "anchors": ["rigidbody2d/RigidBody2DSim.cpp: flow", "rigidbody3d/RigidBody3DSim.cpp: flow", "scisim/ConstrainedMaps/GeometricImpactFrictionMap.cpp: flow"]}
{"id": "C47", "title": "A snapshot of one simulator is refused by the others", "statement": "Resuming a snapshot file with a command line tool other than the one that wrote it ends the program with an error; the file is never misread as a state of another simulator.", "quantifier": "all systems of the three tools, all trailing bytes, all builds", "why_tests_cant": "unbounded file contents", "anchors": ["ball2dcli/ball2d_cli.cpp: deserializeSystem", "rigidbody2dcli/rigidbody2d_cli.cpp: deserializeSystem", "rigidbody3dcli/rigidbody3d_cli.cpp: deserializeSystem"]}
{"id": "C48", "title": "A crash does not lose completed snapshots", "statement": "When a run keeps all snapshots, a crash at any point (between any two file operations, also in the middle of writing a file) leaves every snapshot completed before it intact and resumable. (In overwrite mode this is false: the single snapshot file is truncated before the new snapshot is written.)", "quantifier": "all runs, all crash points, all earlier contents of the file system", "why_tests_cant": "crash points between arbitrary writes cannot be enumerated by tests", "anchors": ["ball2dcli/ball2d_cli.cpp: serializeSystem, exportConfigurationData", "rigidbody2dcli/rigidbody2d_cli.cpp: serializeSystem", "rigidbody3dcli/rigidbody3d_cli.cpp: serializeSystem"]}
{"id": "C49", "title": "Constraint Jacobians measure the true contact velocity", "statement": "For every contact kind the relative velocity, the normal velocity, the normal gradient, the friction columns and the H rows used by the coupled friction solver all measure the same thing: the velocity of the first body at the contact point minus the velocity of the other side there, obstacle motion included. (False for planes against bodies and for kinematic bodies in the 3D simulator, whose motion is left out.)", "quantifier": "all contacts, configurations, velocities, tangent directions, numbers of bodies", "why_tests_cant": "a sign or an arm error only shows for particular contact pairs and directions", "anchors": ["scisim/Constraints/Constraint.h", "ball2d/Constraints/*.cpp: evalNdotV, evalgradg, computeGeneralizedFrictionGivenTangentSample, evalH", "rigidbody2d/*Constraint.cpp", "rigidbody3d/Constraints/*.cpp"]}
{"id": "C50", "title": "Balls that touch across a portal get a contact", "statement": "In a ball simulation with portals the contacts found are exactly: the pairs of balls that touch, and, once per pair, the pairs that touch when one or both are looked at through a portal plane they reach; the contact's normal and relative velocity are those of the images. The search finishes unless a ball touches both planes of one portal. Known gaps: a ball can be in contact with its own image, and with portals balls are only compared at the end of the step.", "quantifier": "all lists of balls, portals (fixed or sliding), positions and radii, with at most 2^32 boxes", "why_tests_cant": "pairs x portals x real coordinates", "anchors": ["ball2d/Ball2DSim.cpp: computeBallBallActiveSetSpatialGridWithPortals, getTeleportedBallBallCenters, generateTeleportedBallBallCollision", "ball2d/Portals/PlanarPortal.cpp", "ball2d/Constraints/KinematicKickBallBallConstraint.cpp"]}
{"id": "C51", "title": "Contacts with fixed geometry are exactly the overlaps", "statement": "At the end of the step a contact with a plane, drum or cylinder is reported exactly for the free bodies that reach into it, at the right points (all corners or hull vertices past the surface for boxes and meshes); round bodies are in contact exactly when they share a point. Gap functions measure the distance left, contacts of round bodies lie on the line of centres in the ratio of the radii, and cylinder normals point straight to the axis. Known gaps: a ball wider than its drum or cylinder is missed, and staples at planes and boxes or staples at cylinders end the program.", "quantifier": "all positions, orientations, radii, shapes, numbers of bodies and obstacles", "why_tests_cant": "real coordinates and arbitrary scenes", "anchors": ["ball2d/Ball2DSim.cpp: computeBallDrumActiveSetAllPairs, computeBallPlaneActiveSetAllPairs", "rigidbody2d/RigidBody2DSim.cpp: computeBodyPlaneActiveSetAllPairs", "rigidbody3d/RigidBody3DSim.cpp: computeBodyPlaneActiveSetAllPairs, computeBodyCylinderActiveSetAllPairs", "rigidbody3d/Constraints/MeshMeshUtilities.cpp", "rigidbody3d/Constraints/Static*.cpp: isActive, evaluateGapFunction"]}
{"id": "C52", "title": "The simulation boundary ends the run exactly when a body leaves it", "statement": "With the exit boundary treatment a 3D run goes on after a step exactly when every point of every body lies in the boundary box, and otherwise ends. (False for staples, whose wire thickness is ignored.)", "quantifier": "all boundaries, bodies, positions and orientations", "why_tests_cant": "real coordinates and arbitrary scenes", "anchors": ["rigidbody3d/RigidBody3DSim.cpp: runBoundaryExitTreatment", "rigidbody3d/Geometry/*.cpp: computeAABB"]}
{"id": "C53", "title": "The overlap volume of two spheres is the volume of their intersection", "statement": "The overlap volume reported for a contact of two spheres is the volume of the set of points inside both, also when they are apart or one contains the other.", "quantifier": "all centres and radii", "why_tests_cant": "a closed formula can only be sampled by tests", "anchors": ["rigidbody3d/Constraints/SphereSphereConstraint.cpp: computeOverlapVolume"]}
{"id": "C54", "title": "Impacts resolved as a complementarity problem neither pull nor add energy", "statement": "When the LCP impact solver reports success, no contact impulse is negative, after the impact every contact separates at least as fast as its restitution coefficient demands and a contact with an impulse no faster, each up to the tolerance; with a single coefficient of restitution and obstacles at rest the kinetic energy grows at most in proportion to the tolerance. (With a different coefficient per contact energy can grow.)", "quantifier": "all numbers of contacts and degrees of freedom, normals, masses, velocities, tolerances and iteration limits > 0", "why_tests_cant": "continuum of configurations, unbounded number of contacts and iterations", "anchors": ["scisim/ConstrainedMaps/ImpactMaps/LCPOperatorAPGD.cpp: flow", "scisim/ConstrainedMaps/ImpactMaps/ImpactMap.cpp: flow", "scisim/ConstrainedMaps/ImpactMaps/ImpactOperatorUtilities.cpp: computeLCPQPLinearTerm"]}
{"id": "C55", "title": "Collision response only acts on contacts", "statement": "A step in which collision detection finds no contact is exactly the integrator's step: no impulse is applied, no coefficient hook runs and, except with the stabilized map, the cached impulses are dropped.", "quantifier": "all integrators, contact maps, states and scripts", "why_tests_cant": "every state without contacts, any collision detection and solver", "anchors": ["scisim/ConstrainedMaps/ImpactMaps/ImpactMap.cpp: flow", "scisim/ConstrainedMaps/GeometricImpactFrictionMap.cpp: flow", "scisim/ConstrainedMaps/StabilizedImpactFrictionMap.cpp: flow", "scisim/ConstrainedMaps/SymplecticEulerImpactFrictionMap.cpp: flow"]}
{"id": "C56", "title": "Bodies that collide get contacts", "statement": "Two rigid bodies that are not both scripted are in the contact set exactly when they collide: planar discs when they share a point at some time of the step, other planar pairs and balls in space when they share a point at its end. Every contact names a free body first (the lower number of two free ones), its normal and point describe how the shapes touch, and no pair gets more than two planar contacts (one if a disc is involved) or more than one between balls. For boxes and meshes in space the contacts are exactly the points the shape test reports for the pairs whose bounding boxes meet. In a bounded scene the set is always built, unless an unsupported pair has meeting boxes, which ends the program. (Known gaps: fast bodies pass through each other except planar discs, flat staples are missed, mixed kinds in space and scripted bodies near free planar boxes end the program without touching.)", "quantifier": "all numbers of bodies up to 2^32, shapes, sizes, positions, orientations and velocities; in space all results of the box and mesh tests", "why_tests_cant": "real coordinates, arbitrary scenes and every pair of shapes", "anchors": ["rigidbody2d/RigidBody2DSim.cpp: computeActiveSet, computeBodyBodyActiveSetSpatialGrid, dispatchNarrowPhaseCollision", "rigidbody3d/RigidBody3DSim.cpp: computeActiveSet, computeActiveSetBodyBodySpatialGrid, dispatchNarrowPhaseCollision", "rigidbody2d/BoxBoxTools.cpp", "rigidbody2d/CircleBoxTools.cpp"]}
{"id": "C57", "title": "The friction solver acts on the system the user sees", "statement": "A call of the So-bogus friction solver with contacts that name bodies of the system succeeds, leaves the contacts naming the same bodies, and its velocities, impulses and friction force are those of the friction problem over all bodies in their own numbering: the inner solver is given H M^-1 H^T, the restitution and surface-velocity biases and the cached impulses of every contact, every body moves by the impulses returned, and a body no contact names keeps its velocity and gets no friction force, although internally only the bodies in contact are kept and renumbered.", "quantifier": "all numbers of bodies and contacts, contact kinds, masses, positions, velocities, frames, coefficients, start impulses and inner solvers", "why_tests_cant": "every set of bodies in contact and every numbering, any inner solver", "anchors": ["scisim/ConstrainedMaps/Sobogus.cpp: SobogusFrictionProblem::solve, Sobogus::solve", "scisim/ConstrainedMaps/bogus/*SobogusInterface.cpp", "scisim/Constraints/Constraint.cpp: computeForcingTerm"]}
{"id": "C58", "title": "A closed scene keeps its momentum over a whole run", "statement": "In a scene of free bodies without planes, drums or cylinders, after any number of steps the total linear momentum is that of the start plus the gravity acting on the whole mass for the elapsed time, whichever integrator, contact map, impact and friction operators, coefficients and warm starts are used and whatever the solvers return. Without gravity the total angular momentum about the origin stays the same as well: planar bodies under all maps, bodies in space under the split and discrete Moser-Veselov integrators, balls in runs without friction. (The symplectic Euler friction map ends the program at the first step of planar bodies.)", "quantifier": "all numbers of bodies and steps, shapes, masses, states, time steps, integrators, contact maps, operators and solvers", "why_tests_cant": "every scene, solver result and number of steps", "anchors": ["ball2d/Ball2DSim.cpp: flow", "rigidbody2d/RigidBody2DSim.cpp: flow", "rigidbody3d/RigidBody3DSim.cpp: flow", "scisim/ConstrainedMaps/ImpactMaps/ImpactMap.cpp: flow", "scisim/ConstrainedMaps/StaggeredProjections.cpp: flow", "scisim/ConstrainedMaps/GRRFriction.cpp", "scisim/ConstrainedMaps/Sobogus.cpp", "scisim/ConstrainedMaps/SymplecticEulerImpactFrictionMap.cpp: flow"]}
{"id": "C59", "title": "Runs without friction make no energy", "statement": "In a scene whose planes, drums and cylinders do not move, if the impact operator solves the complementarity problem it is given and the coefficient of restitution is one number between 0 and 1, then after any number of steps of the unconstrained or the impact map the total energy (kinetic, rotational, gravitational) is at most that of the start: for balls, for planar rigid bodies including scripted ones at rest, and for free bodies in space with three equal principal inertias under the split and discrete Moser-Veselov integrators. Symplectic Euler loses a known amount in each step; the exponential Euler map gains at most a known amount in each step.", "quantifier": "all numbers of bodies and steps, shapes, masses, states, time steps, gravities, obstacles at rest, integrators and impact operators", "why_tests_cant": "every scene, operator result and number of steps", "anchors": ["ball2d/Ball2DSim.cpp: flow", "rigidbody2d/RigidBody2DSim.cpp: flow", "rigidbody3d/RigidBody3DSim.cpp: flow", "scisim/ConstrainedMaps/ImpactMaps/ImpactMap.cpp: flow", "scisim/ConstrainedMaps/ImpactMaps/LCPOperatorQL.cpp", "scisim/UnconstrainedMaps/UnconstrainedMap.h", "rigidbody3d/UnconstrainedMaps"]}
{"id": "C60", "title": "A ball scene file is loaded as written", "statement": "The scenes the 2D ball parser can return are exactly those whose settings are in range (positive time step and end time, tolerances, iteration counts, friction coefficient, restitution with friction between 0 and 1, solver settings that fit together and the libraries of the build, portals over distinct planes). In a loaded scene the i-th ball element fills entry i of the state, the k-th portal joins the two planes it names and the other planes stay in order, numbers are the decimal values in the text rounded to a scalar, the mix of element kinds does not matter, and the camera variant loads the same scene. Loading is undefined only for a time step that overflows or a blank unchecked attribute, and ends the program only for a bad impulse caching option. (Known gaps: masses, radii, restitution without friction, plane normals and some tolerances are not checked, words as fixed flag mean free, negative counts wrap around, time steps in exponent notation are misread.)", "quantifier": "all documents, numbers of elements, attribute texts, rounding modes and optional libraries", "why_tests_cant": "every file; texts of any length and any number of elements", "anchors": ["ball2dutils/Ball2DSceneParser.cpp", "scisim/StringUtilities.h: extractFromString"]}
{"id": "C61", "title": "A 2D rigid body scene file is loaded as written", "statement": "The scenes the 2D rigid body parser can return are exactly those whose settings are in range (positive time step when there is an integrator, positive end time, camera scale and frame rate, tolerances, iteration counts, restitution and friction coefficients, plane normals with a length, positive shape sizes and densities, geometry indices that exist, portals over distinct planes). In a loaded scene the i-th rigid_body element fills entries 3i to 3i+2 of positions, velocities and masses, with the mass of the geometry it names, geometries, forces and planes are those of the file in file order, portals join the planes they name, and the mix of element kinds does not matter. Loading is undefined only for a time step that overflows or an empty vector, and ends the program only for a staggered projections solver or a bad caching option. (Known gaps: the staggered projections solver can never be loaded, a scene without integrator is accepted, infinite positions and sizes are accepted.)", "quantifier": "all documents, numbers of elements, attribute texts, rounding modes, mass functions and optional libraries", "why_tests_cant": "every file; texts of any length and any number of elements", "anchors": ["rigidbody2dutils/RigidBody2DSceneParser.cpp", "scisim/StringUtilities.h: readScalarList, extractScalarFromString"]}
{"id": "C62", "title": "A 3D rigid body scene file is loaded as written", "statement": "The scenes the 3D rigid body parser can return are exactly those whose settings are in range (a time step and integrator, positive end time, camera distance and scale, boundary minimum below maximum, restitution, friction and solver settings that fit together, positive shape sizes, geometry indices that exist, portals over distinct planes with signs as multipliers, nonnegative half widths). In a loaded scene the i-th body element fills its slots of positions, orientations, velocities, masses and inertias, with mass, centre and axes of the geometry it names (a negative index counts from the end); forces, geometries, cylinders and planes are those of the file in file order; portals join the planes they name, renderers follow their planes to the new indices and portals are drawn with the widths of their planes; an orthographic camera overrides a perspective one; the mix of element kinds does not matter. Loading is undefined only for a time step that overflows, an empty vector or the smallest int as geometry index, and ends the program only for a bad caching option. (Known gaps: a renderer index one past the end, negative densities, zero plane normals and frame rates of 0 or -1 are accepted, the documented generalized restitution friction solver is rejected, exported scenes cannot be loaded.)", "quantifier": "all documents, numbers of elements, attribute texts, rounding modes, mass functions and optional libraries", "why_tests_cant": "every file; texts of any length and any number of elements", "anchors": ["rigidbody3dutils/RigidBody3DSceneParser.cpp", "rigidbody3dutils/XMLExporter.cpp", "scisim/StringUtilities.h: readScalarList", "rigidbody3d/RenderingState.cpp", "rigidbody3d/RigidBody3DState.cpp"]}
{"id": "C63", "title": "The mass, centre and moments of inertia of a body are those of its shape", "statement": "For every circle and box in the plane, every sphere and box in space, every triangle mesh that is the surface of a solid cut into tetrahedra, and every density, the mass, centre of mass and moments of inertia the geometry reports are the integrals over the shape: the mass is the integral of the density, the centre is the integral of the position divided by the volume, and the principal moments and axes together give the inertia tensor about the centre. For a staple, taken as its three cylinders, mass and centre are right; its moments are right exactly when inner width and length are one unit.", "quantifier": "all sizes, densities, meshes and subdivisions into any number of tetrahedra", "why_tests_cant": "sizes, densities and meshes are unbounded and an integral cannot be sampled", "anchors": ["rigidbody2d/CircleGeometry.cpp: computeMassAndInertia", "rigidbody2d/BoxGeometry.cpp: computeMassAndInertia", "rigidbody3d/Geometry/RigidBodySphere.cpp: computeMassAndInertia", "rigidbody3d/Geometry/RigidBodyBox.cpp: computeMassAndInertia", "rigidbody3d/Geometry/RigidBodyStaple.cpp: computeMassAndInertia", "rigidbody3d/Geometry/RigidBodyTriangleMesh.cpp: computeMassAndInertia", "rigidbody3d/Geometry/MomentTools.cpp: computeMoments"]}
{"id": "C64", "title": "Mesh contacts come from the distance field of the mesh", "statement": "The grid of signed distances of a triangle mesh describes exactly one function that has the stored values at the grid points and is linear along the axes in every cell. A point is reported in contact exactly when it lies in the grid and that function is not positive there, and the normal is the unit direction in which it grows. Flat surfaces are found exactly, and grids sampled from a distance function are right up to a cell diagonal. Two placed meshes get one contact for every surface sample of either mesh inside the other, at the world position of the sample, with normals out of the second body; exchanging the bodies negates the normals, moving both moves the contacts. Points on the far faces of the grid are excluded: there the test reads past the end of the grid.", "quantifier": "all grids, values, points, samples, positions and orientations", "why_tests_cant": "grids, sample counts and poses are unbounded, and the reads past the end depend on the exact position", "anchors": ["rigidbody3d/Geometry/RigidBodyTriangleMesh.cpp: detectCollision, v", "rigidbody3d/Constraints/MeshMeshUtilities.cpp: computeActiveSet", "rigidbody3d/RigidBody3DSim.cpp: meshMeshNarrowPhaseCollision"]}
{"id": "C65", "title": "What is written to an HDF5 file is what is read from it", "statement": "A matrix or number whose write returned is read back entry for entry, whatever the storage order of the two Eigen types, after any further use of the file, including refused writes, library failures and reopening; reads return nothing else. No data set is ever changed or removed by a later call, names that are taken are refused, reads of another scalar type or size throw, opening for writing empties a file and opening for reading does not. The names that can be written are exactly the free ones whose group exists or can be made in an existing group.", "quantifier": "all matrices, sizes, storage orders, names, file contents, histories of calls and patterns of library failures", "why_tests_cant": "histories, names, sizes and failure points are unbounded", "anchors": ["scisim/HDF5File.h: write, read, splitFullName, getNativeType, getDimensions, extractDataCCS", "scisim/HDF5File.cpp: open, write, findOrCreateGroup, findGroup"]}
{"id": "C66", "title": "A saved state file holds the state of the simulation", "statement": "Whenever saving the state returns, whatever was in the file before and whichever library calls failed, a reader of the file finds the time step, iteration, time and version, the positions, velocities, masses and scripting flags of the bodies, the static geometry, and for each body, by following its entry of the index table into the table of its shape type, the shape of that body. Two files with the same contents come from the same bodies, planes and cylinders. With the library working a save returns for every scene without staples; with indices in range it never reads outside the state. Not in the file: portals of 3D scenes, drums and portals of ball scenes, velocities of planes in 2D; a staple ends the program.", "quantifier": "all states, numbers and orders of bodies, shapes and static objects, old file contents and patterns of library failures", "why_tests_cant": "scenes are unbounded and any library call may fail", "anchors": ["rigidbody3d/StateOutput.cpp", "rigidbody2d/StateOutput.cpp", "rigidbody3d/RigidBody3DSim.cpp: writeBinaryState", "rigidbody2d/RigidBody2DSim.cpp: writeBinaryState", "ball2d/Ball2DSim.cpp: writeBinaryState", "rigidbody3dcli/rigidbody3d_cli.cpp: saveState", "rigidbody2dcli/rigidbody2d_cli.cpp: saveState", "ball2dcli/ball2d_cli.cpp: saveState"]}
{"id": "C67", "title": "Exported contact forces say who met whom, where and with which force, and account for the motion", "statement": "Whenever exporting the forces of a step returns, whatever was in the file before, a reader of the file finds the time step, iteration, time and version, the number of contacts and, for every contact in order, the two bodies (or the body and the number of the fixed object), the contact point, the contact normal and the force, whose components in the frame of the contact are the normal and the friction impulses. With the library working the export returns unless a contact of a body with a cylinder or of a sphere with a body is there. Adding up the forces on a body, and the torques they exert about its centre, gives its change of linear and angular momentum, for the impulses of the friction solver and for impacts. (The forces are impulses. Excepted: scripted bodies are named though no force acts on them; the torque on the second body of a contact through a portal; planes, drums and cylinders share their numbers; friction sampled along more directions than the space has tangents is exported wrongly.)", "quantifier": "all scenes, contacts, masses, positions, velocities, impulses, old file contents and patterns of library failures", "why_tests_cant": "scenes and contacts are unbounded, and any library call may fail", "anchors": ["scisim/ConstrainedMaps/ImpactFrictionMap.cpp: exportConstraintForcesToBinaryFile", "scisim/ConstrainedMaps/ImpactMaps/ImpactSolution.cpp: setSolution, writeSolution", "scisim/Constraints/Constraint.h: getBodyIndices, getStaticObjectIndex, getWorldSpaceContactPoint", "ball2dcli/ball2d_cli.cpp: stepSystem, generateOutputConstraintForceDataFileName"]}
{"id": "C68", "title": "Rigid bodies that touch across a portal get a contact, once, described as it is seen", "statement": "In a world with portals the contacts of a step fall into three groups. Bodies in place are in contact exactly if not both are scripted, they collide and their bounds meet at the end of the step, with the same normal, point and relative velocity as without portals; bodies that overlap at the end of the step are always among them. A contact across portals joins two discs (balls) that touch where they are seen, at least one of them through a plane its bounds reach; its normal, arms and relative velocity are those of the bodies as seen. All discs (balls) that touch like that get a contact, unless both are seen through planes and they also touch in place, and no two bodies get two. The contacts with fixed planes and cylinders, and without portals all contacts, are the usual ones. (Excepted: a disc that passes through another one within a step is missed, boxes and meshes near a plane and scripted discs end the program, a body can touch itself, a disc that reaches both planes is seen through the first only.)", "quantifier": "all numbers of bodies and portals, shapes, positions at the start and the end of the step, velocities, scripting flags and sliding portals", "why_tests_cant": "scenes and portals are unbounded and the coordinates are real numbers", "anchors": ["rigidbody2d/RigidBody2DSim.cpp: computeActiveSet, computeBodyBodyActiveSetSpatialGridWithPortals, generateTeleportedCollision, collisionIsActive", "rigidbody2d/PlanarPortal.cpp", "rigidbody2d/TeleportedCircleCircleConstraint.cpp", "rigidbody2d/KinematicKickCircleCircleConstraint.cpp", "rigidbody3d/RigidBody3DSim.cpp: computeActiveSetBodyBodySpatialGrid, teleportedCollisionHappens, generateTeleportedCollision", "rigidbody3d/Portals/PlanarPortal.cpp"]}
{"id": "C69", "title": "Two boxes in space get contacts exactly where they overlap", "statement": "Boxes without a common point get no contact; boxes with a common point inside one of them get at least one and at most eight. The contacts of a pair share one unit normal, pointing from the second box towards the first. The overlap along it is the least along all face normals of the boxes and at most five percent more than along any direction, so moving the boxes apart by it along the normal separates them almost as cheaply as possible. Either the points lie on the face of one box that looks at a face of the other one, straight below that face, with the deepest such point among them and, when all of the common part is below the face, spanning it; or there is a single point midway between an edge of either box where they reach deepest. In a simulation, two boxes of which at most one is scripted are in contact only if they meet at the end of the step, and are if they share a point inside one of them. (Excepted: boxes that only share an edge can get no contact.)", "quantifier": "all positions, orientations and half widths of the boxes, and all scenes they are part of", "why_tests_cant": "orientations and sizes are real numbers with fifteen candidate axes and many ways to clip two faces", "anchors": ["rigidbody3d/Constraints/BoxBoxUtilities.cpp: isActive, boxBox, intersectRectQuad, axisAlignedSeperatingTest, edgeEdgeSeparatingTest, lineClosestApproach", "rigidbody3d/RigidBody3DSim.cpp: boxBoxNarrowPhaseCollision, dispatchNarrowPhaseCollision"]}
{"id": "C70", "title": "The problems handed to the optimisation packages are the physical ones, and their solutions obey the laws of contact", "statement": "The objective, bounds, constraints and first and second derivatives given to Ipopt belong together and describe the least kinetic energy over non-negative impacts, or over friction impulses in discs. Whenever the package reports success only where the first-order conditions hold: impacts push, contacts then separate at least as fast as their restitution demands and get no impulse where they separate faster, all to the tolerance of the solver; friction stays in its disc, opposes sliding, takes away as much kinetic energy as any friction in the discs could, and the multiplier returned is the sliding speed. The same holds for QL with an interval or sampled directions, where the multipliers satisfy the conditions of the linearised cone. The answer is that of the first listed linear solver that succeeds; if none does the program ends. Exactly the non-empty lists of different known linear solvers are accepted. (Excepted: more than 26754 unknowns for QL, errors of QL, which are only printed, a stop of Ipopt before it reports anything, diagonal entries that are not stored, friction bounds of zero or beyond the square root of 10^19.)", "quantifier": "all numbers of contacts, matrices, velocities, coefficients, starting points, lists of linear solvers and solvers that report success only at first-order points", "why_tests_cant": "problem sizes are unbounded, the coefficients are real numbers and the packages may answer anything their contract allows", "anchors": ["scisim/ConstrainedMaps/ImpactMaps/LCPOperatorIpopt.cpp", "scisim/ConstrainedMaps/ImpactMaps/LCPOperatorQL.cpp", "scisim/ConstrainedMaps/FrictionMaps/SmoothMDPOperatorIpopt.cpp", "scisim/ConstrainedMaps/FrictionMaps/BoundConstrainedMDPOperatorQL.cpp", "scisim/ConstrainedMaps/FrictionMaps/LinearMDPOperatorQL.cpp", "scisim/ConstrainedMaps/FrictionMaps/FrictionOperatorUtilities.cpp: formLinearFrictionDiskConstraint", "scisim/ConstrainedMaps/IpoptUtilities.cpp", "scisim/Math/QL/QLUtilities.cpp"]}
{"id": "C71", "title": "An interactive session replays the run of the command line tool", "statement": "Whatever the user of the graphical programs did before, the simulation on the screen is the one the command line tool arrives at with the scene opened last after as many steps as were taken since it was opened or reset; the deviations displayed are the largest of all those steps from the values of the scene file; the session ends exactly at the step after the end time. A reset brings back state, script, caches, iteration, colours and picture of the moment the scene was opened. A movie consists of the picture on the screen and then of every state whose iteration is a multiple of the steps per frame, each under the next number, with no file written twice; the steps per frame are exact for the frame rate if there is such a number and one otherwise. No session reads outside an array or divides by zero. (Excepted: scripts that do not start afresh; the second scene in rigidbody2dqt4; scripts that change bodies or shapes in the start callback or replace a shape within one step; 2^32 steps or a multiple per frame; changing the frame rate or, in rigidbody3dqt4, resetting while a movie is exported; the first picture when only frames are painted.)", "quantifier": "all simulators, scripts, scenes and sequences of user actions and idle events", "why_tests_cant": "sessions are unbounded sequences of actions and the simulator behind them is arbitrary", "anchors": ["ball2dqt4/GLWidget.cpp", "ball2dqt4/ContentWidget.cpp", "rigidbody2dqt4/GLWidget.cpp", "rigidbody2dqt4/ContentWidget.cpp", "rigidbody3dqt4/GLWidget.cpp", "rigidbody3dqt4/ContentWidget.cpp"]}
{"id": "C72", "title": "The cameras of the graphical programs show what the user asked for", "statement": "After any history of resizing, dragging, zooming, centring, locking, switching views and opening scenes: in the planar programs the window shows the centre and scale the camera holds, with square pixels; a drag moves the picture with the mouse pixel by pixel, zooming scales it about the middle of the window, centring brings every body into the window with a margin. In space the view is a rotation and a shift, the point looked at is in the middle and in front of the camera, the picture is upright; the buttons orbit about that point, shift the picture, or move the camera along its axis; the three orthographic views have the axes of their names; centring brings every body into the window; exported camera settings, opened again, give the same picture. A locked camera ignores the mouse, the wheel and centring. (Excepted: in ball2dqt4 an opened scene, or a reset camera, is not shown until the picture is touched; a lock does not stop a change of view; a scene opened before the window is first shown is framed for another angle of view; scenes that are too small or, in an orthographic view, too large, and very wide windows, are clipped.)", "quantifier": "all sequences of user actions, window sizes, mouse movements, scenes and states of the simulation", "why_tests_cant": "histories are unbounded and the cameras hold real numbers", "anchors": ["ball2dqt4/DisplayController2D.cpp", "ball2dqt4/GLWidget.cpp: centerCamera, openScene, mouseMoveEvent, wheelEvent", "rigidbody2dqt4/DisplayController2D.cpp", "rigidbody2dqt4/GLWidget.cpp: centerCamera, openScene", "rigidbody3dqt4/PerspectiveCameraController.cpp", "rigidbody3dqt4/OrthographicCameraController.cpp", "rigidbody3dqt4/GLWidget.cpp: centerCamera, initializeRenderingSettings, exportCameraSettings, mouseMoveEvent, wheelEvent"]}
{"id": "C73", "title": "Scripts are found where the scene is and the interpreter's objects are handled properly", "statement": "Whatever the Python interpreter answers, and in any order of opening scenes and running callbacks, the program never uses or gives back a Python object it does not hold, and what it holds is what its scripting object refers to (beside one reference per reload). A callback calls the function of the current script with that name exactly once, or nothing if there is none; a scene without script never reaches the interpreter. A script in the directory of its scene, whose path needs no escaping, is the one used, in its present version, and the module search path is left as it was; a callback name bound to something that cannot be called is refused.", "quantifier": "all interpreters, all sequences of loads and callbacks, all directories, file contents and earlier loads", "why_tests_cant": "the history of loads and callbacks is unbounded and the interpreter may answer anything; reference errors show only under rare schedules", "anchors": ["scisim/PythonObject.cpp", "scisim/PythonTools.cpp: loadModule, loadFunction, pythonCommand", "ball2d/PythonScripting.cpp: intializePythonCallbacks, swap, callbacks", "scisim/ScriptingCallback.cpp", "ball2dcli/ball2d_cli.cpp: exitCleanup, g_scripting"]}
{"id": "C74", "title": "The arrays a script gets are the state and the coefficients themselves", "statement": "During a run with a script, what a callback reads from an array it fetched is the value the simulation holds, what it writes to it is the value the simulation goes on with, inserted balls are part of the state from then on, and in the callbacks of a step the timestep and iteration are those of the step. A script that fetches what its callback may see, uses only arrays fetched in the same callback after its last insertion and asks for the time only in the callbacks of a step never makes the program touch memory that is gone, whatever it computes; an index out of bounds or an error in a callback ends the program; at the end the memory holds the final state and no vector is left over. (Excepted: arrays kept for a later callback, used after an insertion or fetched in a callback that does not own them; the time outside the callbacks of a step.)", "quantifier": "all scripts, numbers of steps, timesteps, initial states and integrators with any number of contacts", "why_tests_cant": "scripts are arbitrary programs over an unbounded history and a dangling array usually still shows plausible numbers", "anchors": ["ball2d/PythonScripting.cpp: configuration, velocity, mu, cor, timestep, nextIteration, insertBall, startOfStep, endOfStep, frictionCoefficient, restitutionCoefficient", "ball2d/Ball2DSim.cpp: flow", "ball2d/Ball2DState.cpp: pushBallBack", "scisim/ConstrainedMaps/GeometricImpactFrictionMap.cpp", "rigidbody3d/PythonScripting.cpp"]}
