# Formal model of reactphysics3d in Rocq: design

Source: `/repo` (reactphysics3d, pinned commit). The code is never built or run here;
the model was written by reading the source. Every definition of a `*Model.v` file carries
a comment naming the file and lines it models and any simplification made.

## Layout

* `rocq/theories/<Area>Model.v` : executable Gallina model, no proofs about properties.
* `rocq/theories/<Area>Proofs.v`: invariants and lemmas.
* `rocq/theories/<Area>Properties.v`: only the property theorems (closed by `exact`), each
  followed by `Print Assumptions`, with `Example`s showing that the hypotheses are met by a
  concrete non-trivial case.
* `properties.jsonl` the properties, `MANIFEST.json` property -> theorem names,
  `seeded/LOG.jsonl` the log of the model-mutation experiments.

## Modelling conventions

* **Undefined behaviour** (out-of-range access, read of uninitialised memory, null dereference,
  use of an entry that does not exist) is a distinct outcome of the model (`None`/`UB`), never
  a default value. Theorems either prove it does not occur or state the precondition that
  excludes it. `assert` is compiled out in release builds: the model takes the release
  semantics and treats the assertion as a documented precondition.
* **Loops** are structural recursion or recursion on fuel; running out of fuel is a distinct
  outcome which the theorems exclude.
* **Integers**: unbounded `nat`/`N`/`Z` unless the property is about wrap-around, in which case
  the wrap is written in the model (`mod 2^64`, `mod 2^24`, ...).
* **Numbers (`decimal`)**: three treatments, stated for each area.
  1. *Order-only* code (AABB tests, tree): generic in a record of operations with the laws
     used listed as hypotheses (`Decimal.v`), instantiated with exact rationals and with numbers of 24
     significant bits rounded to nearest even (`DecimalInstances.v`, Flocq).
  2. *Arithmetic* code (geometry, solver, dynamics): exact real arithmetic `R`. Rounding is
     **not** modelled; thresholds (`MACHINE_EPSILON`, `0.01`, ...) are kept as in the code.
  3. *Rounding-sensitive integer code* (capacity computation through `float`): the rounding to
     24 bits is modelled exactly on integers.
* **Addresses** in the allocators are integers `Z`; memory obtained from the base allocator is an oracle that is
  assumed to return fresh chunks, disjoint from all live chunks.

## Trusted base

* Coq 8.16.1 kernel (and `vm_compute`, used for the concrete witnesses).
* The assumptions printed by `Print Assumptions` under each property theorem. Theorems over `R`
  use the standard library's axioms of the classical reals
  (`ClassicalDedekindReals.sig_forall_dec`, `ClassicalDedekindReals.sig_not_dec`,
  `FunctionalExtensionality.functional_extensionality_dep`; those about angles (`atan`, `acos`) also
  `Classical_Prop.classic`); all other theorems are closed under the
  global context unless listed in the table at the end of this file. No axiom is added by this development.
* The reading of the C++ source. No extraction or execution links the model with the code.

## Plan per property

| id | model | how it is proved |
|----|-------|------------------|
| C01 | `ArrayModel`: buffer of optional slots + size + capacity, each method | simulation: every step of the buffer commutes with the list edit; induction over histories |
| C02 | `DequeModel`: linear buffer, content in a window [start, end] around the middle | same, abstraction = the window |
| C03 | copy constructor / assignment of `DequeModel` | refuted by witness, plus the exact condition under which it holds |
| C04 | `HashModel`: buckets, next-entries, entries, free list, generic hash function | representation invariant (disjoint acyclic chains, free list) and refinement to association lists |
| C05 | same table with unit values | same |
| C06 | iterator of the table | permutation of the stored entries |
| C07 | `clear(true)` | refuted for every history: after clear(true) on a table with memory every insertion is undefined or loses entries; lookups may loop |
| C08 | `reserve` | refuted (reserve(64) provides for 48 entries); proved that 3n/4 entries fit without growth |
| C09 | bit functions on `N` with wrap | bit lemmas |
| C10 | `pairNumbers` on `N` with wrap | arithmetic |
| C11, C12 | `HeapModel`: unit lists per chunk with addresses | tiling invariant over histories |
| C13 | `PoolModel` | invariant over histories |
| C14 | `PoolModel` (second half) | invariant over histories; condition on the base allocator, discharged for the heap allocator |
| C15 | address arithmetic on `Z`/`N` | arithmetic |
| C16 | `EntityModel`: generations array, free queue (the Deque spec), 24/8 bit packing | invariant over histories |
| C17 | `ComponentsModel`: packed array + index map | invariant and frame property over histories |
| C18-C21 | `TreeModel`: node array with free list, every branch of insertion, removal, rotation; queries with explicit stack | representation predicate (array represents an inductive tree), refinement of each operation to inductive trees; queries by induction on the stack |
| C22, C23 | `PairsModel`: four packed arrays with index maps | invariant; C23 refuted by witness with a positive theorem for enabled pairs |
| C24, C31-C33, C57, C81-C86 | `BodyModel`: a rigid body with every call of its API that touches mass, velocity, force, pose, colliders, sleeping and activation, and the update (force and gravity integration, damping, position integration, state update); the impulses of the contact and joint solvers are inputs | invariants over histories; the update in closed form; C32, C57, C81, C82, C84, C85 refuted in part by witness |
| C25, C66, C67 | `IslandModel`: the depth-first search with explicit stack over contact/joint graph, waking bodies on the way | loop invariants; reachability spec by inductive relation (`chain`, IslandSpec.v) |
| C26 | `SleepModel`: sleep times, minimum per island, `setIsSleeping(true)`, over an abstract totally ordered decimal type | invariant over histories: the stored sleep time is the resting time read off the history (SleepSpec.v) |
| C23 (world level), C27, C29, C30, C63-C65 | `WorldModel`: bodies, colliders, joints, pair storage, broad-phase tree as a map; all API calls that touch them and the stages of an update | one invariant (`WInv`, WorldProofs.v) over all histories satisfying `allowed` (WorldSpec.v); violations by short concrete histories |
| C28, C98 | `EventModel`: the flags of every pair, the lost pairs and the trigger flags over any history of calls, queries and updates; `EventSpec` gives the automaton of one pair and the listener | an invariant for one pair (`one`), an invariant of the listener (`informed`) over orderly histories |
| C34, C35, C68-C72 | `VecModel` over `R`: vectors, matrices, quaternions, transforms | ring/field; branch analysis for the conversions; trigonometric identities |
| C36-C40, C73, C74 | `GeomModel` over `R` | convexity (stationarity conditions of a quadratic), invariants over the list of planes or vertices |
| C41-C46, C75-C79 | `ShapeModel` over `R`; `ShapeSpec` describes shapes as sets of points, support points, first hits | quadratics for spheres and capsules, interval invariants over slabs and faces, barycentric coordinates, isometries |
| C47, C48, C80 | `NarrowModel` over `R`: spheres and capsules as thick points and segments (`NarrowSpec`) | closest points of convex sets (variational inequality), parameters along parallel segments; degenerate cases refuted |
| C49-C51, C87-C94 | `ContactModel` over `R`: initialisation, warm start, iterations and storing of the contact solver; `ContactSpec` gives the laws of mechanics for impulses | every velocity change is a pair of opposite impulses (`push_*_eq`), a generic preservation theorem over all iterations (`preserve_step`), a relation between two runs for C92; C51, C88-C91 refuted in part by witness |
| C52-C54, C95-C97 | `ManifoldModel` over `R`: grouping of candidate points into potential manifolds, reduction, creation of contacts, inheritance of impulses; `ManifoldSpec` gives what a frame shows | an invariant of the grouping (`PInv`, `QInv`), `reduce_ok`, `create_ok` (ranges are disjoint windows), `inherit_ok`, and soundness of every reachable frame |
| C55 | `HalfEdgeModel`: the face loop with its maps and arrays | the map after the loop holds exactly the directed edges; the second loop links them. Converse: an open mesh misses a key |
| C99-C102 | `MeshModel` over `R`: creation of a convex mesh from polygon data (half-edges, normals, centroid, bounds, volume, Euler check), `MeshSpec`: signed volume, area vector, centre of a solid | Stokes-type cancellation over the edges of a closed mesh; determinants of affine maps |
| C56, C103-C105 | `HeightFieldModel`: heights and vertices over `R`, casts to int/uint32 with undefined overflow, the walk of a ray over the grid with infinities and NaN; `HeightFieldSpec`: the surface as the union of its triangles | truncation lemmas for the range of cells; the walk covers every cell above which the ray is inside the bounds; neighbouring cells agree on their common border; the two sums of distances decrease, so the walk ends |
| C106-C114 | `JointModel`: initBeforeSolve, warmstart and solveVelocityConstraint of the four joint kinds over `R`, the sweep over all joints, reported forces, the angle of a hinge; `JointSpec`: anchor points in the world, exchanges of impulses, what is reported | every step of every joint is an exchange of opposite impulses at two points, summed up over the iterations; 3x3 and 2x2 systems solved exactly, with a lower bound on the determinant; energy change of an exchange as a quadratic form; trigonometry for the angle; witnesses computed step by step |
| C115-C120 | `JointPositionModel`: solvePositionConstraint of the four joint kinds over `R`, the loops and iterations; `JointPositionSpec`: anchor points, angles and extensions from the normalised orientations | every correction is a sequence of opposite moves of two bodies; exact solution of the linearised gap and a bound on the second-order remainder of the turn; fixed points; filtering of the list of joints; witnesses |
| C121, C122, hinge limits of C120 | the same model; `JointPositionSpec`: twist, axes and misalignment in the world | the correction solves the linearised error exactly; bounds on the second-order remainder from the moments of inertia; one joint among joints of other bodies; turns by `2 atan(x/2)`; witness with the opposite quaternion |
| C123-C125 | `GjkModel`: the simplex (closest point of segment, triangle and tetrahedron with barycentric coordinates, reduction, tests for dependence), the loop and its exits, the result for the narrow phase; `GjkSpec`: shapes as hulls of finite lists of vertices plus a margin | `seg_spec`, `tri_spec`, `tetra_spec`: each routine returns the closest point; the loop keeps a point of the difference of the hulls and strictly decreases its length, the kept set of vertex pairs never repeats, which bounds the turns; a bound on the distance for each exit; witness with small shapes |
| C126 | the same with the face test of the separating axis algorithm (`sat_sphere`) | by C123-C125; a polyhedron is given by vertices and faces that describe the same set; the face of least depth is the shortest way out |
| C127-C130 | `TriMeshModel`: createTriangleMesh (epsilon, copy, removal of unused vertices, normals, tree), concave mesh shapes (scale, bounds, box query, ray cast) over `R`, on the models of the tree, the slab test and the triangle ray cast; `TriMeshSpec`: good triangles, messages due, renaming of vertices, angles and weighted sums, boxes and surfaces | an invariant of the copy loop and of the removal loop (the vertices kept form a sorted list of indices); the tree after n insertions holds the n boxes (`holds`), then C20 and C21 for each box; the fold over the nodes found keeps the nearest hit; witnesses: meshes kept as they are (`given_mesh`) |
| C131-C133 | `QueryModel`: shapes (spheres, boxes, capsules), bodies and colliders, the calls that create, move, resize, remove and (de)activate them, the step of the simulation as far as it moves bodies, with the model of the broad-phase tree; world and body ray casts; `QuerySpec`: points of a collider, histories, dialogue with the callback | an invariant over all histories (`winv`: each node of the tree belongs to one collider of an active body and contains its box); the traversal of the tree as a dialogue; witnesses with one and two balls |
| C134-C135 | `OverlapModel` on top of `WorldModel`: the six overlap and collision queries of a world (broad phase, filtering of the pairs of one or two bodies, middle phase with the query flag, narrow phase as a test of two colliders, marks of the pairs, triggers left out of contacts); `OverlapSpec`: when two colliders meet or collide | the pairs of the queries are exactly the simulated pairs of the world (`in_current`); soundness and completeness from the invariant of worlds (C27, C63); the broad phase is idempotent and the marks are reset by the middle phase (C135) | partial: refuted for sleeping bodies, for the query flag, and for filters changed between query and update |
| C136-C138 | `SatModel`: the separating axis test of two convex polyhedra (faces, pairs of edges that build a face of the Minkowski difference, tolerances, clipping of the incident face, contacts of edges, data kept from the last frame with 8-bit indices), frames of a pair; `box_solid`; `SatSpec`: separating planes, depth of the overlap along a direction, edges of convex polyhedra, contacts between faces and edges | `SatProofs`, `SatEdgeProofs`: the depth computed for a face or a pair of edges is the depth of the overlap along the axis; `SatClipProofs`: clipping keeps points of the face and leaves the prism; `SatFullProofs`, `SatRunProofs`: all outcomes of the test, totality, histories of frames; `SatBoxProofs`: all boxes meet the requirements | C136 refuted for thin overlaps beside a face, C137 proved, C138 refuted in the simulation |
| C139-C140 | `TriSmoothModel`: triangle shapes as polyhedra with two faces, smoothing of their contacts, the test of a triangle and a polyhedron | a triangle with an area meets the requirements of `SatSpec`; algebra of rotations; barycentric coordinates (C40); witnesses on a flat triangle with tilted normals | C140 refuted by witnesses |
| C141-C142 | `CapSatModel`: the separating axis test of a capsule and a convex polyhedron (faces, edges against the inner segment, clipping of the segment with the sides of a face, contacts); smoothing of contacts of triangles left out | depths as in C136; the ends of the segment survive the clipping if they are in front of all planes; witnesses on a box of 4 cm | C141 refuted by witnesses |
| C143-C144 | `CapPolyModel`: the whole test of a capsule and a convex polyhedron (GJK, further contacts with a face beside a shallow contact, separating axis test); one pair of a batch | from C123-C125 and C141-C142; a plane between the shapes keeps the axis of the capsule at its radius; clipping leaves at most two points; a run on a cube derived from the theorems about GJK | C143 partial: tiny shapes, and the failures of C141 |
| C145-C146 | `LifeModel`: creation and destruction of bodies and joints, sleeping, activation and type of bodies, the order of the component slots, the destructor of the world; colliders left out | invariant (objects unique, both ends of joints exist, lists of joints exact) up to permutation; awake bodies that are not static are enabled and keep their slot; witnesses of four to six sleeping bodies | refuted by witnesses |
| C147-C148 | `RolesModel`: worlds with bodies, colliders and shared shapes; adding and removing colliders, destroying bodies, worlds and shapes, activation, resizing, the two roles with their mutually recursive setters, the tests of contacts in `createIslands`; joints and sleeping left out | invariant over all histories: the lists of bodies, shapes and worlds are exact and without repetition, tree membership equals activity, roles exclude each other, the flag of a body covers its simulation colliders |
| C149 | `StackModel`: `Stack`, with its growth through single precision, on the buffers of `ArrayModel` | refinement to lists; `push(top())` on a full stack refuted by witness |
| C150 | `QhModel`: the half-edges of `QHHalfEdgeStructure` (list, twins, map, release), addFace one edge at a time | refinement to lists of edges; neighbourhood of twins as an invariant of the lists |
| C151 | `QlModel`: the lists of faces and vertices of `QHHalfEdgeStructure`, and their release | refinement to lists |
| C152 | `QrModel`: the links around the faces of `QHHalfEdgeStructure` (addFace, removeFace); the merging of faces in `QuickHull.cpp` is not modelled | invariant over histories, refinement to a list of faces |
| C62 | `TreeModel` | refuted by witness; bound by the number of leaves |
| C58, C59 | `ArrayModel`, `DequeModel` | refuted by witness |
| C60 | `HeapModel` | divisibility invariant for multiples of 8; refuted in general |
| C61 | `ComponentsModel` (`layout_from`): array starts as computed by the allocate functions | induction over the list of element sizes |

## Notes on single areas

* **Allocators.** The fields of the heap allocator's unit headers are stored per address (`h_sz`, `h_nU`, ...), the set
  of addresses holding a live header is `h_dom`; a header access outside `h_dom` is undefined behaviour. The
  contents of user blocks are not stored. `release` reads `unit->nextUnit` of a unit whose header object was just
  destroyed by the merge with its predecessor; the model reads the raw (still intact) field. Requested sizes plus
  overhead do not wrap. The mutex of the allocators is not modelled (single thread).

* **Worlds.** `WorldModel` uses the specifications of the containers below it (maps C04/C17, pair storage C22, tree
  C18-C20), so its trees are maps from node to enlarged box and its pair storage is `PairsSpec`. Boxes are an abstract type with a
  symmetric overlap test, a containment test and an enlargement; the theorems hold for every choice. The narrow phase is
  an arbitrary set of colliding pairs per update.

## Findings (properties the code does not have)

Each is a theorem `..._refuted` about the faithful model.

* C03, C59: copying/assigning a `Deque` that has grown at the front; unbounded growth of a FIFO.
* C07: `Map`/`Set::clear(true)` leaves the free-list head behind.
* C08: `reserve(n)` provides for 3/4 n entries.
* C14 (boundary): `SingleFrameAllocator::release` leaks a block lying just behind the buffer (unreachable with the heap
  allocator as base).
* C58: bulk growth of an `Array` above 2^24 elements, `add` of an own element of a full array.
* C60: heap unit headers at misaligned addresses.
* C17: `HingeJointComponents::swapComponents` (HingeJointComponents.cpp:357) and
  `SliderJointComponents::swapComponents` (SliderJointComponents.cpp:388) save `bUpperLimit` from
  `mUpperLimit`, so enabling or disabling a joint overwrites its stored limit term.
  All other component classes copy every field; for them the theorems apply.

* C21: `AABB::testRayIntersect` computes 0 * infinity when an axis-parallel ray lies in the plane of a face; the
  comparison with a NaN fails and the object is not offered.
* C62: `balanceSubTreeAtNode` performs one rotation per node on the way up; a leaf placed beside a high subtree
  leaves an unbalanced node.

* C23: `OverlappingPairs::setNeedToTestOverlap` (OverlappingPairs.h) looks a pair up in the enabled arrays only; for a disabled
  pair it indexes them with a missing entry. Reachable: `setTransform` of a static body under a sleeping one, or
  `setCollideWithMaskBits`/`setCollisionCategoryBits` on either collider.
* C27: `RigidBody::setType` from static to dynamic does not enable the disabled pairs of the body; the next update
  then runs into C23. Two overlapping static bodies get a simulated pair.
* C29: `destroyJoint` removes the no-collision entry of two bodies although another joint still forbids the collision.
* C63: `destroyJoint` does not ask for a new broad-phase test of the bodies unless they were asleep;
  `updateOverlappingPairs` never re-checks the filter bits of existing pairs.
* C64: `setType` on an inactive body enables its components; `setIsActive(true)` calls `setIsSleeping(false)` while
  the body is still inactive, which returns at once, so that the body stays asleep.
* C65: `addNoCollisionPair` (createJoint) records a lost contact pair outside an update; destroying one of its colliders
  before the next update leaves an event with a dead collider.
* C26: `setTimeBeforeSleep(0)` is accepted and `minSleepTime >= mTimeBeforeSleep` then holds for every island, moving or not
  allowed to sleep; sleep times are neither cleared nor updated while sleeping is disabled.
* C38, C39: `clipSegmentWithPlanes` keeps a single vertex when the segment leaves a plane at a grazing angle and then reads
  a second one for the next plane; `clipPolygonWithPlane` reads vertex -1 of an empty polygon and drops the front part of
  grazing edges.
* C69: the linear shortcut of `Quaternion::slerp` gives quaternions that are not of unit length.
* C45: `CapsuleShape::raycast` treats the ray as parallel to the axis when a quantity of dimension length^4 is below 0.01, so a
  short ray into the side of a small capsule is a miss; the early tests look at fractions up to one only.
* C75: `TriangleShape::raycast` for both sides: when the first product is zero the other two may have opposite signs and a point
  on the prolongation of an edge is reported as a hit.
* C76-C78: `ConvexMeshShape` with a scale: the support point maximises over the unscaled vertices; `raycast` and
  `testPointInside` combine scaled normals with unscaled face points.

* C47: `SphereVsSphereAlgorithm` with coincident centres puts both contact points on the same side (the second should be at
  -normal).
* C48: `SphereVsCapsuleAlgorithm` does not reverse the normal when the capsule is the first shape and the centre of the sphere lies
  on the inner segment.
* C80: `CapsuleVsCapsuleAlgorithm` compares the unnormalised cross product with 1e-5, so small crossed capsules count as parallel
  and their collision is missed; overlapping collinear capsules that point in opposite directions get a normal along the line
  with a depth that does not separate them.

* C32: `integrateRigidBodiesVelocities` applies damping to kinematic bodies as well.
* C57: `computeMassAndInertiaTensorLocal` keeps the diagonal of the tensor only.
* C81: `updateMassPropertiesFromColliders` corrects the linear velocity of dynamic bodies only; the other two functions correct it
  for all bodies.
* C82: `setTransform` adds the angular velocity times the displacement of the centre of mass to the linear velocity, as if the
  body had been re-anchored.
* C84: `setType(STATIC)` clears the velocities but not the constrained velocities that the solvers read, and updates never write those
  of a disabled body: a body stopped in motion acts as a conveyor belt on what touches it.
* C85: `setType(STATIC)` and `setTransform` store the transform position as constrained position of a static body, the joints take it for the
  centre of mass.
* C64 (again): an inactive body whose type is changed twice falls under gravity.

* C51: `warmStart` (ContactSolverSystem.cpp:445-465) applies the stored twist impulse twice.
* C88: the effective masses ignore the lock factors of the bodies, the velocity changes respect them; with a locked rotation axis the
  normal impulse can increase the approach speed.
* C89: the bounce velocity is fixed before the solver starts and is enforced against bodies that other contacts already moved; a
  chain of three balls gains energy.
* C90: friction acts on the two bodies at different points when they penetrate, which creates angular momentum.
* C91: the friction bound is applied per direction (a pyramid), not to the length of the impulse.
- **C52** `reduceContactPoints` (CollisionDetectionSystem.cpp:1483-1662) chooses four points by position only: `C52_depth_ignored_refuted` shows that
  penetration depths have no influence for any input, `C52_deepest_kept_refuted` gives a square whose deepest centre point is dropped.
- **C97** `initContactsWithPreviousOnes` does not mark the previous point as used, so two contact points close to one previous point both start
  with its impulse (total warm-start impulse doubled).
- **C28** `testOverlap(callback)` and `testCollision(callback)` clear `collidingInCurrentFrame` of every enabled pair, `testCollision` sets it. The flag is
  recomputed in the next update, but a body put to sleep in between freezes it (`disablePair` copies both flags). When a contact wakes the body inside
  `createIslands`, after the narrow phase, the stale flag is used: `computeLostContactPairs` reports an exit of a contact that lasts
  (`C28_exit_while_touching_refuted`), or the pair counts as colliding and its first event is a stay (`C28_stay_without_start_refuted`).
- **C98** The listener is misled in four ways: `removeCollider` (destruction, `setIsActive(false)`) removes pairs without an exit event and a later activation reports a
  second start; `setIsTrigger` during a contact sends the exit to the other callback; a pair removed by the broad phase of a query (or by `createJoint`) and found
  again before the update gets its new start reported before the old exit.
- **C99** `computeHalfEdges` (lines 109-117) looks up `mapEdgeToIndex` with `Map::operator[]`, which only asserts that the key exists: with a border edge in the
  polygon data the key is missing and the entry at index 2^64-1 is read (`C99_open_surface_refuted`). With no face `mFaces[0]` is read from an empty array. A face of two vertices
  makes `computeFacesNormals` skip one `add`, so the later `mFacesNormals[f]` lies outside the array. Euler's formula is tested only as one flag among others, the accesses happen anyway.
- **C102** The centroid is the mean of the vertices, not of the solid (a square pyramid has 1/5 instead of 1/4 of its height). `computeCenterOfMass` uses
  the origin of each collider and never asks the shape for its centroid: a cube modelled around (5,0,0) rotates around (0,0,0).
- **C56** `computeMinMaxGridCoordinates` converts the coordinate along the height to int although nobody uses it; undefined if the heights span 2^31 or more.
- **C103** A ray parallel to the x axis exactly along the far border (z = +length/2): `tMaxJ` = 0/0 is NaN, `tMaxI < tMaxJ` is never true, j += 0 for ever. `C103_far_border_stuck`
  shows this for every field, scale and such ray. (The model has one zero; with a direction component of -0.0 other grid lines give -infinity and the same loop.)
- **C104** `HeightFieldShape::raycast` scales the hit point back but not the normal.
- **C105** `nbGridColumns * nbGridRows` is computed in int. Not expressed as a theorem: `createHeightField` allocates `sizeof(TriangleMesh)` bytes for the object and releases
  `sizeof(HeightField)`; with a negative scale the bounds and the query box are inverted.
- **C106** The motor of a slider changes only linear velocities (`SolveSliderJointSystem.cpp` 437-459): a pair at rest whose centres are not in line with the axis gains angular momentum.
- **C108** `std::abs(determinant) > MACHINE_EPSILON` (2^-23) is tested for a matrix of inverse masses: two bodies above about 406 kg, joined at their centres, are not held at all.
- **C110** Fixed and slider joints overwrite the matrix by its inverse only if the determinant is large enough, and else use the matrix itself as the inverse: two welded two-tonne beams multiply their
  energy by 113 per iteration. The limit mass of a slider is computed from `mR2CrossSliderAxis` before that is updated: in the first update the arm counts as zero.
- **C112** The hinge motor has the wrong sign: w becomes 2w - s in every iteration instead of s.
- **C113** The relative orientation is taken in the world frame and compared with the one at creation: turning the whole assembly by g gives g e g^-1 e^-1 for a relative orientation e at creation.
- **C114** `BallAndSocketJoint::getReactionTorque` is always zero although the cone limit applies a torque. The motor force of a slider is reported as part of the reaction force but acts at the centres.
- **C118** `DynamicsSystem::integrateRigidBodiesPositions` does not normalise the constrained orientations, and the arms `q * (anchor - centre)` are scaled by |q|^2: a fitting pendulum that spins about its
  arm is moved by the first iteration (a second iteration would move it back).
- **C119** `SolveSliderJointSystem.cpp` 526 has `return` where the other three solvers go on to the next joint.
- **C120** The axis of the cone limit is the cross product of two unit vectors and is not normalised, so that the correction is too large by 1 / sin(angle). Not expressed as a theorem: the limits of a hinge use
  the inverse mass of the iteration before (a hypothesis of C120_hinge_partial); the setters of limits assert on the old value.
- **C121** The orientation error of fixed joints and sliders is twice the vector part of the relative quaternion, without regard to its sign: after `setTransform` with the opposite quaternion, which is the same
  rotation, the correction turns the bodies the wrong way.
- **C125, C126** `VoronoiSimplex::isAffinelyDependent` compares the squared area (cross product) of three points with the absolute threshold 0.0001: for shapes of about 10 cm every triangle counts as degenerate, and
  the search ends with the closest point of an edge. A sphere of radius 5 cm that is 2 cm deep in a box of 9 cm is reported as separated. Not expressed as theorems: `isPointInSimplex` accepts points within 1 cm;
  `computeClosestPointOnSegment` takes `float& t`, which loses precision if `decimal` is double; `gjkResults` is indexed by the batch index and not relative to the start of the batch.
- **C127** `TriangleMesh::removeUnusedVertices` stops at index 1: an unused vertex 0 stays, with the coordinates (0,0,0) and a zero normal. With an empty array of vertices its unsigned loop starts at 2^32-1 and reads
  out of the array. With all vertices at the origin the epsilon is 0 and triangles without area pass (an assertion in debug builds). Not expressed as theorems: user normals of length one are rejected as too short when the coordinates exceed about 10^6,
  since the tolerance for lengths is also used for normals.
- **C128** `computeVerticesNormals` clamps the cosine of the corner to [0, 1] instead of [-1, 1]: every obtuse corner counts as 90 degrees. The normals of a two-sided sheet cancel to zero; they are later normalised by a division by zero.
- **C129** `applyScale` multiplies both corners of a box: with a negative scale component the minimum exceeds the maximum, for the query box and for the local bounds, and triangles are missed.
- **C130** The slab test gives not-a-number for a ray that runs in the plane of a face of the box of a triangle (C21): a ray straight down on an axis-parallel edge shared by two floor triangles misses both.
- **C131** `setRadius`, `setHalfExtents` and `setHeight` only mark the colliders; the broad phase is refreshed in the next step: until then world queries use the old size. `updateBodiesState` and `updateColliders` leave out
  sleeping bodies, and resizing does not wake them: a resized shape of a sleeping body stays invisible for ever outside its old box.
- **C132** The documented answer 1 ("not clipped") clips a ray with `maxFraction` > 1 to fraction 1.
- **C133** `Collider::raycast` transforms point and normal of the `RaycastInfo` to world space even if the shape was missed, and `Body::raycast` passes the same structure to all its colliders: after the nearest hit each further collider
  that is missed transforms the point again. The reported point need not be on the ray.
- **C134** The queries search only the pairs that are simulated (`mConvexPairs`, `mConcavePairs`). A pair whose bodies both sleep (or are static)
  has been moved to the disabled arrays: `testOverlap` and `testCollision` then answer that the bodies do not touch, although the last update
  reported their contact and nothing has moved.
- **C134** `setIsWorldQueryCollider(false)` is honoured by the queries about the whole world, but not by those about one or two bodies
  (`computeMiddlePhaseCollisionSnapshot` does not look at it).
- **C134**, debug builds only (not modelled): `testCollision` for a body with a trigger computes contact points for the trigger, so that the assertion on
  the number of contact points of a trigger in `CollisionCallback` fails.
- **C135** A query runs the broad phase and so creates pairs; if the filters of a collider are changed after it, the next update simulates a pair
  that it would have rejected without the query.
- **C136** The face of least depth is preferred within tolerances (0.2 percent plus 0.0005), and the answer is that the shapes do not collide if clipping the opposite face leaves no point behind it. If the part of the
  second box in the first is beside that face (an edge of the second just outside the sides of the face, less than 0.0005 deep), overlapping boxes are reported apart.
- **C138** In the simulation (`mClipWithPreviousAxisIfStillColliding`) the face of the last frame is reused if its depth is positive and clipping finds a point, whatever the other axes say. A box that passed through a thin plate, or
  has left it on the other side while the fat boxes still overlap, is reported with contacts on the far face, with a depth of plate and box together; it is thrown back through the plate. A new pair is reported apart.
- **C138**, not expressed as a theorem: the kept indices of faces and edges have 8 bits; for meshes with more than 256 faces or half-edges another axis than that of the last frame is tried (the theorems show that the answers stay right,
  up to the shortcut above).
- **C140** `computeSmoothLocalContactNormalForTriangle` uses the interpolated normal only where a barycentric coordinate is at most MACHINE_EPSILON, so the normal jumps between border and inside; the realigned point on the other shape
  (point on the triangle minus depth times the new normal) can lie beside that shape.
- **C141** `computeEdgeVsCapsuleInnerSegmentPenetrationDepth` skips an edge if the squared cross product of edge and inner segment (both unnormalised) is below 1e-5, so all edges are skipped when
  height times edge length is below about 0.0032 (metres squared; a box of 4 cm and a capsule of 4 cm). A face is then the axis of least depth although an edge is nearer, and `computeCapsulePolyhedronFaceContactPoints`
  finds no contact if the deep end of the segment is beside the face: the answer is "apart" with contacts and "colliding" without (`C141_missed_refuted`). The planes it clips with have unnormalised
  normals, so a segment nearly parallel to a side of a small face counts as parallel, one vertex is left, and the next plane reads the second one (`C141_read_refuted`; an assertion in debug builds).
- **C145** `destroyRigidBody` runs `while (joints.size() > 0) destroyJoint(joints[0])` on a reference into the component array of the bodies. `destroyJoint` wakes both bodies, and waking a body swaps its component with the first
  disabled one. If the body was asleep (or static beside a sleeping one), the reference then shows the joints of another body: with two jointed pairs asleep, destroying one body destroys the joint of the other pair
  (`C145_other_joint_refuted`; the user keeps a dangling pointer); or the loop ends early and a joint of the destroyed body stays, so the next update() looks up a missing component (`C145_joint_left_refuted`).
- **C146** The same happens in the destructor of a world with sleeping bodies (`C146_sleeping_refuted`). Its loop over the joints counts upwards while the joints are removed and so misses about half of them; the loop over the
  bodies destroys the rest, so without sleeping bodies the result is right.
- **C149** `Stack::push(top())` on a full stack: the parameter is a reference into the array that `allocate` releases before the element is copied
  (`C149_push_top_refuted`). `allocate` also copies the elements without destroying the old ones; destructors of elements are not modelled.

## Not modelled

Threads (the engine is single threaded), profiling, logging, debug rendering, rendering test bed, rounding in GJK and SAT, SAT between
capsules and triangles, QuickHull apart from the lists of its half-edge structure (numerical convergence in floating point has no
exact-arithmetic statement that the code satisfies), file output. These lists are revised as the model grows.
