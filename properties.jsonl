{"id": "C01", "title": "Array behaves as a sequence", "statement": "After any sequence of public Array operations (add, emplace, addWithoutInit, addRange of another array, removeAt, removeAtAndReplaceByLast, remove(value), clear, reserve, copy construction, assignment) the elements returned by size(), operator[], iteration, find and operator== are exactly those of the mathematical sequence obtained by the same edits, capacity() is never below size(), and no slot that was never constructed is ever read, provided every index passed is below size() remove(value) is called with a value that is present, an array is not appended to itself or given a reference to its own element, and bulk operations (addRange, addWithoutInit, copy, assignment, explicit reserve) stay within 2^24 elements.", "quantifier": "every finite history of Array operations, every element type and every element values, every initial capacity", "why_tests_cant": "Growth, in-place shifting and swap-removal interact; a test samples a few histories and sizes, while the claim is about all histories and all capacities (including the reallocation boundaries).", "anchors": ["include/reactphysics3d/containers/Array.h: Array::reserve, add, emplace, addRange, remove, removeAt, removeAtAndReplaceByLast, clear, operator=, operator=="]}
{"id": "C02", "title": "Deque behaves as a double-ended sequence", "statement": "For every history of addFront, addBack, popFront, popBack, clear and reserve, getFront, getBack, operator[] and size() return what the mathematical double-ended sequence would return, and no slot is read before it was written; popping an empty deque is the only excluded call.", "quantifier": "every finite history of Deque operations, every element type", "why_tests_cant": "The circular buffer wraps at either end and is re-laid out at growth; the failing alignments of first/last index against capacity are history dependent and unbounded.", "anchors": ["include/reactphysics3d/containers/Deque.h: Deque::getItem, reserve, addBack, addFront, popFront, popBack, clear"]}
{"id": "C03", "title": "A copied Deque equals its source", "statement": "Copy-constructing a Deque, or assigning one Deque to another, yields a deque that compares equal to the source and shares no slot with it, whatever the history that produced the source and the destination.", "quantifier": "every source deque reachable by any history, every destination deque", "why_tests_cant": "Whether the copied slots and the first/last indices agree depends on the position of the circular window, i.e. on the history of the source.", "anchors": ["include/reactphysics3d/containers/Deque.h: Deque(const Deque&), operator="]}
{"id": "C04", "title": "Map behaves as a finite partial function", "statement": "For every hash function and every history of Map operations (add, add with overwrite, remove, clear without release, reserve, copy construction and assignment) with distinct keys inserted unless overwrite is requested, containsKey, find, operator[] and size() agree with the finite partial function obtained by the same edits, every chain walk terminates and no entry slot outside the allocated range or not yet initialised is read.", "quantifier": "every hash function on keys, every finite history of operations, every key and value types with decidable equality", "why_tests_cant": "Chained buckets, a free list threaded through the same array and rehashing interact; collisions depend on the hash values; only an invariant over all histories and all hash functions rules out lost or duplicated entries.", "anchors": ["include/reactphysics3d/containers/Map.h: Map::findEntry, reserve, containsKey, add, remove, clear, find, operator[]"]}
{"id": "C05", "title": "Set behaves as a finite set", "statement": "For every hash function and every history of Set operations (add, remove, clear without release, reserve, copy) contains, add's return value, size() and toArray() agree with the finite set obtained by the same edits; toArray() lists every element exactly once.", "quantifier": "every hash function, every finite history of operations, every element type with decidable equality", "why_tests_cant": "Same as for Map: bucket chains, free list and rehash interact in a history- and hash-dependent way.", "anchors": ["include/reactphysics3d/containers/Set.h: Set::findEntry, reserve, contains, add, remove, clear, toArray"]}
{"id": "C06", "title": "Map and Set iteration visits every entry exactly once", "statement": "Iterating a Map or a Set from begin() to end() without modifying it terminates and yields each stored entry exactly once and nothing else.", "quantifier": "every map and set reachable by any history, every hash function", "why_tests_cant": "The order and the skipping of empty buckets depend on hash values and table size; exhaustive iteration is a universal statement about all reachable tables.", "anchors": ["include/reactphysics3d/containers/Map.h: Map::Iterator::advance, begin, end", "include/reactphysics3d/containers/Set.h: Set::Iterator::advance, begin, end"]}
{"id": "C07", "title": "Map and Set remain usable after clear(true)", "statement": "After clear(true), which releases the memory, a Map or Set behaves as a freshly constructed empty one: the next add succeeds and lookups see exactly what was added since.", "quantifier": "every map and set reachable by any history, followed by clear(true) and any further history", "why_tests_cant": "Whether stale bookkeeping is used depends on the content of the free list at the moment of the clear, i.e. on the earlier history.", "anchors": ["include/reactphysics3d/containers/Map.h: Map::clear, add", "include/reactphysics3d/containers/Set.h: Set::clear, add"]}
{"id": "C08", "title": "reserve gives at least the requested capacity", "statement": "Map::reserve(n) and Set::reserve(n) leave a capacity (number of entries that fit without further growth) of at least n for every n that the allocator can serve, and never lose stored entries.", "quantifier": "every requested capacity in the 64-bit range, every reachable container", "why_tests_cant": "The capacity goes through a 32-bit float, whose rounding only goes wrong beyond 2^24; tests do not allocate 16 million entries.", "anchors": ["include/reactphysics3d/containers/Map.h: Map::reserve", "include/reactphysics3d/containers/Set.h: Set::reserve", "include/reactphysics3d/mathematics/mathematics_functions.h: nextPowerOfTwo64Bits"]}
{"id": "C09", "title": "Power-of-two helpers are correct on all 64-bit inputs", "statement": "isPowerOfTwo(n) holds exactly when n is a power of two (for n > 0), and nextPowerOfTwo64Bits(n) is the least power of two not below n for every n from 1 to 2^63.", "quantifier": "all 64-bit unsigned integers", "why_tests_cant": "2^64 inputs; bit tricks usually fail at the extremes.", "anchors": ["include/reactphysics3d/mathematics/mathematics_functions.h: isPowerOfTwo, nextPowerOfTwo64Bits"]}
{"id": "C10", "title": "Two different unordered collider pairs never share a pair identifier", "statement": "The 64-bit identifier of a pair of colliders, computed from their two 32-bit identifiers, is the same for both orders of the pair and different for different unordered pairs, and its computation never overflows 64 bits.", "quantifier": "all pairs of 32-bit identifiers", "why_tests_cant": "2^64 pairs: collisions of a pairing function cannot be found by sampling.", "anchors": ["include/reactphysics3d/mathematics/mathematics_functions.h: pairNumbers", "include/reactphysics3d/engine/OverlappingPairs.h", "src/engine/OverlappingPairs.cpp: addPair"]}
{"id": "C11", "title": "Heap allocator returns aligned, disjoint, large enough blocks", "statement": "For every history of allocate and release on the heap allocator, every block handed out is 16-byte aligned, lies inside memory obtained from the base allocator, does not overlap any other live block nor allocator bookkeeping, and holds at least the requested number of bytes until it is released.", "quantifier": "every finite history of allocate(size)/release(pointer) with each pointer released at most once, every size, every base-allocator placement", "why_tests_cant": "Splitting, merging and growing the unit list is history dependent; overlap appears only for particular interleavings of sizes.", "anchors": ["src/memory/HeapAllocator.cpp: allocate, release, splitMemoryUnit, mergeUnits, reserve, computeNextAvailableMemoryUnit", "include/reactphysics3d/memory/MemoryAllocator.h: alignAddress"]}
{"id": "C12", "title": "Heap allocator never loses memory", "statement": "At every moment the memory obtained from the base allocator is exactly tiled by live and free units, two neighbouring free units of one chunk are always merged, and after everything is released each chunk is again one single free unit, so an allocation that fitted before fits again.", "quantifier": "every finite history of allocate/release", "why_tests_cant": "Fragmentation leaks only appear after particular sequences of releases; the claim is about all of them.", "anchors": ["src/memory/HeapAllocator.cpp: release, mergeUnits, addToFreeUnits, removeFromFreeUnits"]}
{"id": "C13", "title": "Pool allocator returns aligned, disjoint, large enough units", "statement": "For every history of allocate and release on the pool allocator, every small block handed out is aligned, at least as large as requested, disjoint from all other live blocks, and a released unit is only handed out again for the same size class.", "quantifier": "every finite history of allocate(size)/release(pointer,size)", "why_tests_cant": "Free-list corruption depends on the history of all 128 size classes and of block table growth.", "anchors": ["src/memory/PoolAllocator.cpp: allocate, release, PoolAllocator"]}
{"id": "C14", "title": "Single-frame allocator never hands out overlapping memory within a frame", "statement": "Between two resets all blocks returned by the single-frame allocator are aligned, pairwise disjoint, inside the frame buffer or separately obtained from the base allocator, every base allocation is given back, and reset makes the whole buffer available again.", "quantifier": "every finite history of allocate/release/reset, every size", "why_tests_cant": "The boundary between buffer and fallback allocations is hit only for particular sums of sizes.", "anchors": ["src/memory/SingleFrameAllocator.cpp: allocate, release, reset"]}
{"id": "C15", "title": "Pointer alignment always lands inside the margin", "statement": "Aligning an address always yields the next 16-byte boundary strictly above it, at most 16 bytes away, and the stored offset allows the original address to be recovered exactly on release.", "quantifier": "all 64-bit addresses far enough from the top of the address space", "why_tests_cant": "All 2^64 addresses; off-by-one at already aligned addresses is the classic error.", "anchors": ["include/reactphysics3d/memory/MemoryAllocator.h: allocateAligned / alignAddress and release", "src/memory/MemoryAllocator"]}
{"id": "C16", "title": "Live entities never share an identifier and stale identifiers are detected", "statement": "For every history of creating and destroying entities, two entities that are alive at the same time have different identifiers, isValid is true for every live entity, and it is false for a destroyed entity until its index has been recycled 256 times.", "quantifier": "every finite history of createEntity/destroyEntity in which each destroyed entity was alive", "why_tests_cant": "Identifier reuse needs more than 1024 destructions before the first recycling and 256 recyclings before wrap-around; tests do not get there.", "anchors": ["src/engine/EntityManager.cpp: createEntity, destroyEntity, isValid", "include/reactphysics3d/engine/Entity.h"]}
{"id": "C17", "title": "Component storage stays packed, partitioned and correctly indexed", "statement": "For every history of adding, removing, enabling and disabling components, each entity that has a component finds exactly its own data, all enabled components come before all disabled ones, indices are contiguous from zero, and an operation on one entity changes the data of no other entity.", "quantifier": "every finite history of addComponent/removeComponent/setIsEntityDisabled, every data payload", "why_tests_cant": "Removal and enable/disable move up to two other components around; index-map corruption appears only for particular positions.", "anchors": ["src/components/Components.cpp: prepareAddComponent, removeComponent, setIsEntityDisabled", "src/components/*Components.cpp: addComponent, moveComponentToIndex, swapComponents"]}
{"id": "C18", "title": "Broad-phase tree keeps one leaf per object and tight hierarchical boxes", "statement": "After any history of addObject, updateObject and removeObject, every live object is reachable at exactly one leaf carrying its data, every inner node's box is the union of its children's boxes, every parent link is the inverse of a child link, heights are exact, and freed nodes are recycled without ever aliasing a live node.", "quantifier": "every finite history of tree operations with at most 32768 live objects at a time (heights are stored in 16 bits), every box coordinates (including degenerate boxes), every cost heuristics outcome", "why_tests_cant": "Rotations and node recycling restructure the tree in a history-dependent way; corruption can stay invisible for thousands of operations.", "anchors": ["src/collision/broadphase/DynamicAABBTree.cpp: addObjectInternal, removeObject, updateObject, insertLeafNode, removeLeafNode, balanceSubTreeAtNode, allocateNode, releaseNode"]}
{"id": "C19", "title": "Tracked boxes always contain the last reported box", "statement": "After any history, the fat box stored for an object contains the box most recently reported for it through addObject or updateObject, whichever branch updateObject took.", "quantifier": "every finite history, every non-negative inflation percentage", "why_tests_cant": "Depends on whether the early exit of updateObject was taken at each step.", "anchors": ["src/collision/broadphase/DynamicAABBTree.cpp: updateObject, addObject", "include/reactphysics3d/collision/shapes/AABB.h: contains"]}
{"id": "C20", "title": "Box overlap queries miss nothing and invent nothing", "statement": "A query of the tree with a box reports exactly the objects whose stored fat box overlaps that box, each exactly once, for every reachable tree.", "quantifier": "every reachable tree, every query box", "why_tests_cant": "A pruning error shows only for particular tree shapes; the tree shape is a function of the whole history.", "anchors": ["src/collision/broadphase/DynamicAABBTree.cpp: reportAllShapesOverlappingWithAABB, reportAllShapesOverlappingWithShapes", "include/reactphysics3d/collision/shapes/AABB.h: testCollision"]}
{"id": "C21", "title": "A ray cast through the tree misses no candidate and a closest-hit callback returns the closest hit", "statement": "If the callback never shortens the ray, every object whose box is hit by the ray is offered to it; if the callback returns the hit fraction of each accepted hit, the last accepted hit is a closest one among all objects; returning 0 stops the traversal.", "quantifier": "every reachable tree, every ray, every callback behaviour of the stated form", "why_tests_cant": "Pruning with a shrinking ray depends on visiting order, hence on tree shape and history.", "anchors": ["src/collision/broadphase/DynamicAABBTree.cpp: raycast", "src/systems/BroadPhaseSystem.cpp: raycast, raycastBroadPhaseShape", "include/reactphysics3d/collision/RaycastInfo.h: RaycastCallback"]}
{"id": "C22", "title": "Overlapping-pair storage keeps every pair exactly once", "statement": "For every history of adding, removing, enabling and disabling collider pairs, each existing pair is stored exactly once, is found under its identifier, keeps its two colliders and its colliding-in-previous-frame flag, and enabling or disabling a pair changes no other pair.", "quantifier": "every finite history of pair operations", "why_tests_cant": "Four swap-with-last arrays and four index maps have to stay in step; the failing index patterns are history dependent.", "anchors": ["src/engine/OverlappingPairs.cpp: addPair, removePair, removeConvexPairWithIndex, enablePair, disablePair", "include/reactphysics3d/engine/OverlappingPairs.h"]}
{"id": "C23", "title": "Requesting a re-test of a pair never touches memory outside the pair storage", "statement": "Marking the pairs of a collider for re-testing (as happens when its body is moved or its filter bits change) is safe for every pair of the collider, whether the pair is currently simulated or belongs to sleeping bodies.", "quantifier": "every reachable combination of sleeping and awake bodies, every API call that re-tests a collider", "why_tests_cant": "Only triggered for pairs in the disabled state, which needs a particular sleep history.", "anchors": ["include/reactphysics3d/engine/OverlappingPairs.h: setNeedToTestOverlap", "src/systems/CollisionDetectionSystem.cpp: notifyOverlappingPairsToTestOverlap", "src/systems/BroadPhaseSystem.cpp: addMovedCollider"]}
{"id": "C24", "title": "Inverse mass is always consistent with type and mass", "statement": "After any history of setType, setMass and recomputation from colliders, the inverse mass used by the simulation is 1/mass for a dynamic body of positive mass and 0 for static and kinematic bodies, so static and kinematic bodies are never accelerated by forces, gravity or contacts.", "quantifier": "every finite history of mass/type API calls", "why_tests_cant": "The value is cached and updated in several places; a stale cache needs a particular call order.", "anchors": ["src/body/RigidBody.cpp: setType, setMass, updateMassFromColliders, updateMassPropertiesFromColliders", "src/systems/DynamicsSystem.cpp: integrateRigidBodiesVelocities"]}
{"id": "C25", "title": "Islands partition the awake bodies into connected components", "statement": "In every update each awake simulated non-static body belongs to exactly one island, two such bodies are in the same island exactly when they are linked by a chain of contacts and joints running only through non-static bodies, and no island spans a static body.", "quantifier": "every contact graph and joint graph, of any size, with any assignment of body types", "why_tests_cant": "A statement about all graphs: depth-first marking errors show up only on particular topologies.", "anchors": ["src/engine/PhysicsWorld.cpp: createIslands", "include/reactphysics3d/engine/Islands.h"]}
{"id": "C26", "title": "Bodies fall asleep only as whole resting islands", "statement": "A body is put to sleep by the world only if every non-static body of its island is allowed to sleep and has stayed below both velocity thresholds for longer than the sleep time; and then all bodies of the island are put to sleep in the same update.", "quantifier": "every history of updates, every velocities, thresholds and time steps", "why_tests_cant": "Depends on the accumulated sleep times over the whole history and on the worst body of each island.", "anchors": ["src/engine/PhysicsWorld.cpp: updateSleepingBodies", "src/body/RigidBody.cpp: setIsSleeping"]}
{"id": "C27", "title": "A pair of overlapping bodies is simulated whenever one of them is awake and movable", "statement": "For every history of API calls, a tracked overlapping pair of active bodies is in the simulated (enabled) state exactly when at least one of its two bodies is neither static nor asleep.", "quantifier": "every finite history of setType, setIsSleeping, setIsActive, body destruction and updates", "why_tests_cant": "The enabled state of the pair is cached and toggled from several API calls; the violating order of calls is not in any test.", "anchors": ["src/body/RigidBody.cpp: setType, setIsSleeping, enableOverlappingPairs, checkForDisabledOverlappingPairs", "src/systems/CollisionDetectionSystem.cpp: updateOverlappingPairs", "src/engine/OverlappingPairs.cpp: enablePair, disablePair"]}
{"id": "C28", "title": "Contact events of a pair follow start, stay*, exit", "statement": "For a tracked pair of colliders that stays tracked, the sequence of events reported over successive updates is a concatenation of blocks ContactStart ContactStay* ContactExit (the last one possibly unfinished): start is reported exactly in the first colliding update, stay in each following colliding update, exit in the first update without contact.", "quantifier": "every history of colliding/not colliding results over any number of updates", "why_tests_cant": "A temporal property over unbounded histories.", "anchors": ["src/collision/CollisionCallback.cpp: ContactPair::getEventType", "src/systems/CollisionDetectionSystem.cpp: computeLostContactPairs, reportContactsAndTriggers", "src/engine/OverlappingPairs.cpp: updateCollidingInPreviousFrame"]}
{"id": "C29", "title": "Collision between jointed bodies stays disabled as long as any joint says so", "statement": "Two bodies connected by at least one joint with collision disabled never produce contacts with each other, for every history of creating and destroying joints.", "quantifier": "every finite history of createJoint/destroyJoint with any flags", "why_tests_cant": "Needs two joints between the same bodies and a particular destruction order.", "anchors": ["src/engine/PhysicsWorld.cpp: createJoint, destroyJoint", "src/systems/CollisionDetectionSystem.cpp: addNoCollisionPair, updateOverlappingPairs"]}
{"id": "C30", "title": "Pair filtering is symmetric and complete at creation", "statement": "When two colliders start to overlap, a pair is created exactly when they belong to different bodies, their bodies are not both static/asleep-only, each one's category bits intersect the other's mask bits, and no joint forbids their collision; the decision does not depend on the order of the two colliders.", "quantifier": "all category and mask bits, body types and joint configurations", "why_tests_cant": "2^64 bit combinations together with the world state.", "anchors": ["src/systems/CollisionDetectionSystem.cpp: updateOverlappingPairs"]}
{"id": "C31", "title": "Damping never speeds a body up or reverses it", "statement": "With non-negative damping coefficients and time step, one integration step without forces yields velocities that are non-negative multiples of at most one of the previous ones; over any number of steps the speed never increases.", "quantifier": "all velocities, all damping coefficients >= 0, all time steps >= 0, any number of steps", "why_tests_cant": "Continuous parameter space and unbounded iteration.", "anchors": ["src/systems/DynamicsSystem.cpp: integrateRigidBodiesVelocities"]}
{"id": "C32", "title": "Forces on a body accumulate, act once and only along unlocked axes", "statement": "The velocity change of a dynamic body in one update equals time step times inverse mass times the sum of all forces applied since the last update plus gravity if enabled, componentwise multiplied by the lock factors; bodies that are not dynamic keep their velocity; the accumulators are zero afterwards.", "quantifier": "every list of applied forces, all parameters", "why_tests_cant": "A law for any number of force applications and all parameter values.", "anchors": ["src/systems/DynamicsSystem.cpp: integrateRigidBodiesVelocities, resetBodiesForceAndTorque", "src/body/RigidBody.cpp: applyWorldForceAtCenterOfMass, applyWorldTorque"]}
{"id": "C33", "title": "World centre of mass follows the transform", "statement": "After any history of setTransform, setLocalCenterOfMass, mass recomputation and updates, the world-space centre of mass equals the body transform applied to the local centre of mass.", "quantifier": "every finite history of the listed calls", "why_tests_cant": "Two cached copies are updated from several places.", "anchors": ["src/body/RigidBody.cpp: setTransform, setLocalCenterOfMass, updateMassPropertiesFromColliders", "src/systems/DynamicsSystem.cpp: updateBodiesState"]}
{"id": "C34", "title": "Transforms form a group acting isometrically", "statement": "For unit quaternions, composing transforms composes their actions on points, the inverse transform undoes the transform on both sides, rotation preserves lengths, dot products and orientation, and the matrix of a unit quaternion acts like the quaternion.", "quantifier": "all transforms with unit orientation, all points (exact arithmetic)", "why_tests_cant": "Continuous 7-dimensional domain.", "anchors": ["include/reactphysics3d/mathematics/Transform.h", "include/reactphysics3d/mathematics/Quaternion.h", "src/mathematics/Quaternion.cpp"]}
{"id": "C35", "title": "Matrix inverse is a two-sided inverse", "statement": "For every 2x2 and 3x3 matrix with determinant not zero, getInverse multiplied from either side gives the identity (exact arithmetic).", "quantifier": "all invertible matrices", "why_tests_cant": "Continuous domain.", "anchors": ["src/mathematics/Matrix3x3.cpp: getInverse", "src/mathematics/Matrix2x2.cpp: getInverse"]}
{"id": "C36", "title": "Closest point on a segment is optimal", "statement": "computeClosestPointOnSegment returns a point of the segment and no other point of the segment is closer to the query point (exact arithmetic, segments longer than the code's degeneracy threshold).", "quantifier": "all segments and points", "why_tests_cant": "Optimality quantifies over all other points of the segment.", "anchors": ["include/reactphysics3d/mathematics/mathematics_functions.h: computeClosestPointOnSegment"]}
{"id": "C37", "title": "Closest points of two segments are optimal", "statement": "computeClosestPointBetweenTwoSegments returns one point on each segment such that no other pair of points of the two segments is closer, for all configurations outside the code's epsilon thresholds, including parallel segments.", "quantifier": "all pairs of segments", "why_tests_cant": "Optimality quantifies over a continuum of point pairs; clamping case splits hide errors in thin regions.", "anchors": ["include/reactphysics3d/mathematics/mathematics_functions.h: computeClosestPointBetweenTwoSegments"]}
{"id": "C38", "title": "Clipping a polygon against a plane keeps exactly the front part", "statement": "All vertices returned by clipPolygonWithPlane are on the front side of the plane, every input vertex in front is kept, every output vertex lies on the input polygon's boundary, and the order is preserved.", "quantifier": "all polygons of any number of vertices, all planes", "why_tests_cant": "Any number of vertices and all sign patterns.", "anchors": ["include/reactphysics3d/mathematics/mathematics_functions.h: clipPolygonWithPlane"]}
{"id": "C39", "title": "Clipping a segment against planes is safe and returns the part in front", "statement": "For every segment and every non-empty list of planes, clipSegmentWithPlanes returns either no vertices or the two end points of the part of the segment in front of all planes, and reads no vertex that does not exist.", "quantifier": "all segments, all finite lists of planes", "why_tests_cant": "Depends on the interplay of several planes and of the parallel-plane threshold.", "anchors": ["include/reactphysics3d/mathematics/mathematics_functions.h: clipSegmentWithPlanes, computePlaneSegmentIntersection"]}
{"id": "C40", "title": "Barycentric coordinates reconstruct the point", "statement": "For every non-degenerate triangle and every point of its plane the computed barycentric coordinates sum to one and recombine to the point; they are all non-negative exactly when the point is inside the triangle.", "quantifier": "all non-degenerate triangles, all points of their planes", "why_tests_cant": "Continuous domain.", "anchors": ["include/reactphysics3d/mathematics/mathematics_functions.h: computeBarycentricCoordinatesInTriangle"]}
{"id": "C41", "title": "The world box of a shape contains the shape", "statement": "For sphere, box, capsule and triangle shapes and every transform with unit orientation, every point of the transformed shape lies in the axis-aligned box reported by computeTransformedAABB, so the broad phase never misses it.", "quantifier": "all shape dimensions, all transforms, all points of the shape", "why_tests_cant": "Quantifies over all points of the shape and all rotations.", "anchors": ["src/collision/shapes/CollisionShape.cpp: computeTransformedAABB", "src/collision/shapes/SphereShape.cpp: computeTransformedAABB", "src/collision/shapes/BoxShape.cpp: getLocalBounds", "src/collision/shapes/CapsuleShape.cpp: getLocalBounds"]}
{"id": "C42", "title": "Support points are maximal", "statement": "For sphere, box and capsule the support point in a direction belongs to the shape and no point of the shape has a larger projection on that direction.", "quantifier": "all dimensions, all directions, all points of the shape", "why_tests_cant": "Optimality over a continuum.", "anchors": ["include/reactphysics3d/collision/shapes/BoxShape.h: getLocalSupportPointWithoutMargin", "include/reactphysics3d/collision/shapes/CapsuleShape.h: getLocalSupportPointWithoutMargin", "src/collision/shapes/ConvexShape.cpp: getLocalSupportPointWithMargin"]}
{"id": "C43", "title": "Sphere ray cast is exact", "statement": "For a ray starting outside a sphere, SphereShape ray casting reports a hit exactly when some point of the ray at a fraction below the maximum is in the sphere, and the reported fraction is the first one at which the ray point is on the surface; a ray starting strictly inside never hits.", "quantifier": "all radii, all rays longer than the code's threshold, all maximum fractions", "why_tests_cant": "Continuous domain; first-hit is a statement about all earlier fractions.", "anchors": ["src/collision/shapes/SphereShape.cpp: raycast"]}
{"id": "C44", "title": "Box ray cast is exact", "statement": "For a ray starting outside a box, BoxShape ray casting reports a hit exactly when the ray enters the box within the maximum fraction; the reported point is on the surface, no earlier point of the ray is in the box, and the normal is the outward normal of the face that was hit.", "quantifier": "all half extents, all rays whose direction components are zero or above the parallel threshold, all maximum fractions", "why_tests_cant": "Continuous domain with many slab orderings.", "anchors": ["src/collision/shapes/BoxShape.cpp: raycast"]}
{"id": "C45", "title": "Capsule ray cast is exact", "statement": "For a ray starting outside a capsule, CapsuleShape ray casting reports a hit exactly when the ray enters the capsule within the maximum fraction, with the first point on the surface.", "quantifier": "all capsule dimensions, all rays, all maximum fractions", "why_tests_cant": "The parallel threshold is absolute (0.01) while the compared quantity scales with the fourth power of lengths, so failures depend on scale.", "anchors": ["src/collision/shapes/CapsuleShape.cpp: raycast, raycastWithSphereEndCap"]}
{"id": "C46", "title": "Point-inside tests agree with the shape", "statement": "testPointInside of sphere, box and capsule is true exactly for the interior points of the shape.", "quantifier": "all dimensions and points", "why_tests_cant": "Continuous domain.", "anchors": ["include/reactphysics3d/collision/shapes/SphereShape.h: testPointInside", "include/reactphysics3d/collision/shapes/BoxShape.h: testPointInside", "src/collision/shapes/CapsuleShape.cpp: testPointInside"]}
{"id": "C47", "title": "Sphere-sphere collision is exact and its contact is geometrically consistent", "statement": "Two spheres are reported as colliding exactly when the distance of their centres is below the sum of the radii; the normal is a unit vector from the first to the second, the depth is positive, both contact points lie on their spheres, and moving the second body by depth along the normal makes the two world contact points coincide.", "quantifier": "all radii and transforms with unit orientation", "why_tests_cant": "Continuous domain, including coincident centres.", "anchors": ["src/collision/narrowphase/SphereVsSphereAlgorithm.cpp: testCollision"]}
{"id": "C48", "title": "Sphere-capsule collision is exact and its contact is geometrically consistent", "statement": "A sphere and a capsule are reported as colliding exactly when the distance of the sphere centre to the capsule's inner segment is below the sum of the radii, in whichever order the shapes come; the contact normal points from the first to the second shape and the world contact points differ by depth times normal.", "quantifier": "all dimensions, transforms with unit orientation and both orders", "why_tests_cant": "Continuous domain, including the centre lying on the segment.", "anchors": ["src/collision/narrowphase/SphereVsCapsuleAlgorithm.cpp: testCollision"]}
{"id": "C49", "title": "Contact impulses push only, friction stays in its cone", "statement": "After every solver iteration the accumulated normal impulse of each contact point is non-negative and each accumulated friction and twist impulse is at most friction coefficient times the sum of the normal impulses of its manifold in that iteration.", "quantifier": "any number of manifolds, contact points and iterations, all masses, velocities and coefficients", "why_tests_cant": "An invariant over unbounded iterations of a coupled solver.", "anchors": ["src/systems/ContactSolverSystem.cpp: solve, warmStart"]}
{"id": "C50", "title": "Contact solving conserves momentum and never moves immovable bodies", "statement": "When no axis is locked, every solver iteration leaves the total linear momentum of the two bodies of each manifold unchanged, and a body with zero inverse mass and zero inverse inertia keeps its velocities exactly.", "quantifier": "any number of manifolds, points and iterations, all parameters", "why_tests_cant": "A conservation law over all states and any number of iterations.", "anchors": ["src/systems/ContactSolverSystem.cpp: solve, warmStart"]}
{"id": "C51", "title": "Warm starting applies exactly the stored impulses", "statement": "Warm starting changes the velocities by exactly the accumulated impulses stored for the manifold: penetration, both friction directions and twist, each applied once.", "quantifier": "all stored impulses and manifolds", "why_tests_cant": "A numerical duplication only shows as slightly different motion.", "anchors": ["src/systems/ContactSolverSystem.cpp: warmStart"]}
{"id": "C52", "title": "Manifold reduction keeps at most four genuine points including the deepest", "statement": "Reducing a potential manifold of more than four points keeps exactly four different points of it, one of which has the largest penetration depth; manifolds of at most four points are unchanged.", "quantifier": "all sets of candidate points of any admissible size", "why_tests_cant": "Index bookkeeping over removals in an arbitrary candidate set.", "anchors": ["src/systems/CollisionDetectionSystem.cpp: reduceContactPoints, removeItemAtInArray"]}
{"id": "C53", "title": "Duplicate contact points are removed without losing coverage", "statement": "After duplicate removal any two remaining contact points of a manifold are at least the threshold apart and every removed point is closer than the threshold to one that was still there when it was removed.", "quantifier": "all sets of contact points", "why_tests_cant": "In-place removal while iterating; depends on order and geometry.", "anchors": ["src/systems/CollisionDetectionSystem.cpp: removeDuplicatedContactPointsInManifold"]}
{"id": "C54", "title": "At most four manifolds per pair, keeping the deepest", "statement": "Reducing the potential manifolds of a pair leaves at most four of them, and every dropped manifold is no deeper than every kept one.", "quantifier": "any number of manifolds with any depths", "why_tests_cant": "Selection by repeated removal over arbitrary depths.", "anchors": ["src/systems/CollisionDetectionSystem.cpp: reducePotentialContactManifolds"]}
{"id": "C55", "title": "Half-edge structure of a closed mesh is consistent", "statement": "For every closed oriented face list (each directed edge occurs once and its reverse occurs once) the computed half-edge structure has one half-edge per directed edge, twin is an involution reversing the edge, next walks exactly around the half-edge's face, and each face and used vertex refers to one of its own half-edges.", "quantifier": "all closed oriented meshes with any number of faces and face sizes", "why_tests_cant": "Universal over combinatorial meshes.", "anchors": ["src/collision/HalfEdgeStructure.cpp: computeHalfEdges"]}
{"id": "C56", "title": "Height-field queries miss no triangle", "statement": "The triangles returned by a height field for a query box include every grid cell whose horizontal extent meets the box, each cell once, with indices in range, and every triangle identifier is unique.", "quantifier": "all grid sizes, all query boxes", "why_tests_cant": "Rounding and clamping at all grid positions and box alignments.", "anchors": ["src/collision/HeightField.cpp: computeOverlappingTriangles, computeMinMaxGridCoordinates, computeTriangleShapeId"]}
{"id": "C57", "title": "Composite mass properties follow the parallel-axis law", "statement": "The mass of a body recomputed from its colliders is the sum of collider masses, the centre of mass is their weighted mean, and the local inertia tensor is the sum of the rotated collider tensors shifted by the parallel-axis rule; all are independent of collider order.", "quantifier": "any number of colliders, all densities, transforms and shapes", "why_tests_cant": "A law over any number of colliders and continuous parameters.", "anchors": ["src/body/RigidBody.cpp: computeCenterOfMass, computeMassAndInertiaTensorLocal, updateMassPropertiesFromColliders"]}
{"id": "C58", "title": "Bulk growth and self-reference never overrun an array", "statement": "addRange, addWithoutInit, copy construction and assignment of an Array write only inside the buffer for every number of elements that fits in memory, and add(a[i]) on the same array appends a copy of that element whatever the array's size and capacity.", "quantifier": "all element counts, all fill levels", "why_tests_cant": "The failing counts lie above 2^24 elements and the failing fill levels are exactly the reallocation boundaries.", "anchors": ["include/reactphysics3d/containers/Array.h: Array::reserve, addRange, add"]}
{"id": "C59", "title": "Queue memory stays proportional to the content", "statement": "A Deque used as a queue (push at one end, pop at the other) whose size stays bounded keeps a bounded buffer, whatever the number of operations.", "quantifier": "all operation histories with bounded size", "why_tests_cant": "The growth only shows after unboundedly many operations.", "anchors": ["include/reactphysics3d/containers/Deque.h: Deque::addBack, popFront, reserve"]}
{"id": "C60", "title": "Heap bookkeeping structures are properly aligned", "statement": "Every bookkeeping structure the heap allocator places in the memory it manages lies at an address that satisfies its alignment requirement, for all sequences of requested sizes.", "quantifier": "all allocation and release histories, all requested sizes", "why_tests_cant": "Misaligned structures work on common hardware, so only a proof over all size sequences settles it.", "anchors": ["src/memory/HeapAllocator.cpp: HeapAllocator::allocate, splitMemoryUnit"]}
{"id": "C61", "title": "Component arrays fit in their buffer", "statement": "The parallel arrays in which the engine stores the components of a kind are pairwise disjoint, aligned and inside the allocated buffer, for every number of components and every element size.", "quantifier": "all component counts, all lists of element sizes", "why_tests_cant": "The layout depends on how each count and size falls with respect to the alignment; overruns by a few bytes are invisible to tests.", "anchors": ["src/components/TransformComponents.cpp: TransformComponents::allocate", "src/components/RigidBodyComponents.cpp: RigidBodyComponents::allocate"]}
{"id": "C62", "title": "The broad-phase tree stays balanced", "statement": "After any history of addObject, updateObject and removeObject the two subtrees below every inner node of the broad-phase tree differ in height by at most one, so that the cost of queries is logarithmic.", "quantifier": "every finite history of tree operations", "why_tests_cant": "The rotations restore balance for typical sequences; only particular orders of insertion leave an unbalanced node.", "anchors": ["src/collision/broadphase/DynamicAABBTree.cpp: balanceSubTreeAtNode, insertLeafNode"]}
{"id": "C63", "title": "The broad phase misses no overlap", "statement": "After the broad phase of an update, every two colliders of different active bodies whose enlarged boxes overlap, whose filter bits accept each other and whose bodies no joint keeps from colliding are tracked as a pair and hence tested for contact; and every simulated pair has overlapping enlarged boxes and still passes the filters.", "quantifier": "every finite history of API calls and updates", "why_tests_cant": "Pairs are found incrementally, only from the objects that moved, so one missed notification loses a collision for ever; the losing history is not in any test.", "anchors": ["src/systems/CollisionDetectionSystem.cpp: computeBroadPhase, updateOverlappingPairs, removeNonOverlappingPairs", "src/systems/BroadPhaseSystem.cpp: computeOverlappingPairs", "src/engine/PhysicsWorld.cpp: destroyJoint"]}
{"id": "C64", "title": "An inactive body is out of the simulation until it is activated again", "statement": "After setIsActive(false) a body takes part in no pair and is not moved by updates, whatever other calls are made, until setIsActive(true), after which it is simulated again like before.", "quantifier": "every finite history of setIsActive, setType, setIsSleeping and collider calls", "why_tests_cant": "Activity, sleeping, type and the disabled state of components are separate flags changed by separate calls.", "anchors": ["src/body/RigidBody.cpp: setIsActive, setIsSleeping, setType", "src/body/Body.cpp: setIsActive"]}
{"id": "C65", "title": "Contact and trigger events never refer to destroyed colliders", "statement": "Every collider handed to an event listener during an update exists at that moment, for every order of creating joints, destroying colliders or bodies and updating the world.", "quantifier": "every finite history of API calls between updates", "why_tests_cant": "The events of lost pairs are collected outside the update; the violating order is destroy-after-record.", "anchors": ["src/systems/CollisionDetectionSystem.cpp: addLostContactPair, computeLostContactPairs, reportContactsAndTriggers, addNoCollisionPair"]}
{"id": "C66", "title": "Every contact of an island is solved once, with its island", "statement": "In every update each contact between simulation colliders that involves a non-static body of an island is processed exactly once, inside the contiguous range of contacts of that island, and the range of contact manifolds of an island starts exactly where the ranges of the islands before it end.", "quantifier": "every contact graph and joint graph, every assignment of body types and sleeping states", "why_tests_cant": "Flags on bodies, pairs and joints are set and cleared during one traversal; a contact processed twice or outside its island only shows on special topologies (several islands sharing a static body).", "anchors": ["src/engine/PhysicsWorld.cpp: createIslands", "include/reactphysics3d/engine/Islands.h: addIsland"]}
{"id": "C67", "title": "Whatever an awake body touches is awake", "statement": "After the islands of an update are built, every active non-static body linked to an awake body by a chain of contacts and joints through non-static bodies is awake and takes part in the update, no other sleeping body has been woken up, and after the update exactly the active bodies that do not sleep take part in the next one.", "quantifier": "every contact graph, joint graph and set of sleeping bodies", "why_tests_cant": "Waking bodies reorders the component arrays while they are being traversed.", "anchors": ["src/engine/PhysicsWorld.cpp: createIslands", "src/body/RigidBody.cpp: setIsSleeping", "src/components/Components.cpp: setIsEntityDisabled"]}
{"id": "C68", "title": "Orientations survive the conversion to matrices and back", "statement": "The matrix of a unit quaternion is a rotation matrix; the quaternion built from a rotation matrix is a unit quaternion with exactly that matrix; going from a quaternion to the matrix and back gives the quaternion or its negative; a transform written to an OpenGL matrix and read back moves every point alike.", "quantifier": "every unit quaternion and every rotation matrix, in each of the five branches of the conversion", "why_tests_cant": "The branches are chosen by the signs of the trace and by the largest diagonal entry; a wrong sign in one of them only shows for rotations near a half turn about one axis.", "anchors": ["src/mathematics/Quaternion.cpp: Quaternion(const Matrix3x3&), getMatrix", "src/mathematics/Transform.cpp: setFromOpenGL, getOpenGLMatrix"]}
{"id": "C69", "title": "Interpolated orientations are orientations", "statement": "Interpolating between two unit quaternions gives a unit quaternion for every factor between zero and one, starts at the first orientation, ends at the second, and moves along the shorter arc at constant angular speed.", "quantifier": "every pair of unit quaternions and every interpolation factor", "why_tests_cant": "The linear shortcut for close orientations is only reached in a small neighbourhood, and the sign flip only for obtuse angles.", "anchors": ["src/mathematics/Quaternion.cpp: slerp", "include/reactphysics3d/mathematics/Transform.h: interpolateTransforms"]}
{"id": "C70", "title": "Euler angles compose the three axis rotations", "statement": "The quaternion made from three Euler angles is a unit quaternion and is the rotation about the x axis followed by the one about the y axis followed by the one about the z axis.", "quantifier": "all triples of angles", "why_tests_cant": "A swapped sine and cosine or sign only shows for angles that are all different from zero, and the order of composition only for combined angles.", "anchors": ["src/mathematics/Quaternion.cpp: initWithEulerAngles, fromEulerAngles"]}
{"id": "C71", "title": "Unit and orthogonal vectors are what they say", "statement": "getUnit and normalize give the vector of length one in the same direction for every vector not shorter than the machine epsilon, and getOneUnitOrthogonalVector gives a vector of length one orthogonal to the given one for every non-zero vector.", "quantifier": "all vectors, in each of the cases of the smallest component", "why_tests_cant": "The case split on the smallest component divides by the length of the other two, which must not vanish in any case.", "anchors": ["src/mathematics/Vector3.cpp: getUnit, getOneUnitOrthogonalVector", "include/reactphysics3d/mathematics/Vector3.h: normalize, getMinAxis"]}
{"id": "C72", "title": "Angle and axis describe the orientation", "statement": "For every unit quaternion whose vector part is not shorter than the machine epsilon, the reported rotation axis has length one, the angle is between zero and a full turn, and rotating by that angle about that axis is the orientation.", "quantifier": "all unit quaternions outside the tolerance", "why_tests_cant": "Needs the relation of arc cosine and half angles for all quaternions, including those with negative real part.", "anchors": ["src/mathematics/Quaternion.cpp: getRotationAngleAxis"]}
{"id": "C73", "title": "Projections and distances to planes and lines are minimal", "statement": "Projecting a point on a plane gives the point of the plane closest to it, the reported distance to a plane is that distance up to sign, and the reported distance to a line is the smallest distance to a point of the line and is attained.", "quantifier": "all points, planes with unit normal and lines through two points further apart than the machine epsilon", "why_tests_cant": "Minimality quantifies over all points of the plane or line.", "anchors": ["include/reactphysics3d/mathematics/mathematics_functions.h: projectPointOntoPlane, computePointToPlaneDistance, computePointToLineDistance"]}
{"id": "C74", "title": "Clamping a vector bounds its length and keeps its direction", "statement": "Clamping a vector to a maximum length gives a multiple of it by a factor between zero and one whose length is at most the maximum, equal to the maximum when the vector was longer, and the vector itself when it was not.", "quantifier": "all vectors and non-negative maximum lengths", "why_tests_cant": "Short vectors take the branch of getUnit that does not normalise.", "anchors": ["include/reactphysics3d/mathematics/mathematics_functions.h: clamp(const Vector3&, decimal)"]}
{"id": "C75", "title": "Triangle ray casts hit the triangle", "statement": "For a triangle with an area, ray casting reports a hit exactly when the ray meets the triangle within the maximum fraction from a side that is tested; the reported point is the only point of the ray in the triangle and the normal is a unit vector orthogonal to the triangle pointing against the ray.", "quantifier": "all triangles with an area, all rays not nearly parallel to the triangle, the three choices of sides", "why_tests_cant": "Rays through an edge or the prolongation of an edge make one of the products exactly zero, which random tests do not produce.", "anchors": ["src/collision/shapes/TriangleShape.cpp: raycast"]}
{"id": "C76", "title": "Support points of convex meshes are maximal", "statement": "The support point of a convex mesh shape in a direction is a vertex of the scaled mesh and no point of the convex hull of the scaled vertices has a larger projection on the direction.", "quantifier": "all vertex lists, scales and directions", "why_tests_cant": "Optimality over a continuum; scales that differ between the axes are rarely tested with slanted directions.", "anchors": ["src/collision/shapes/ConvexMeshShape.cpp: getLocalSupportPointWithoutMargin"]}
{"id": "C77", "title": "Convex mesh ray casts are exact", "statement": "For a ray starting outside a convex mesh shape, ray casting reports a hit exactly when the ray meets the scaled mesh within the maximum fraction; the reported point is the first point of the ray in the mesh and the normal is the unit outward normal of a face there.", "quantifier": "all convex meshes, scales and rays", "why_tests_cant": "Quantifies over all faces and all earlier fractions; the scale enters normals and points in different places.", "anchors": ["src/collision/shapes/ConvexMeshShape.cpp: raycast, computeScaledFacesNormals"]}
{"id": "C78", "title": "Point tests of convex meshes agree with the shape", "statement": "testPointInside of a convex mesh shape is true exactly for the points behind the planes of all faces of the scaled mesh.", "quantifier": "all convex meshes, scales and points", "why_tests_cant": "Continuous domain and any number of faces.", "anchors": ["src/collision/shapes/ConvexMeshShape.cpp: testPointInside"]}
{"id": "C79", "title": "World queries on a collider agree with the moved shape", "statement": "Ray casting against a collider in world space gives the first hit of the ray with the shape moved by the world transform of the collider, with a unit outward normal, whenever the shape answers correctly in its own space; testing a world point asks the shape about the same point in its own space.", "quantifier": "all transforms with unit orientation, shapes, rays and points", "why_tests_cant": "The correctness of the conversion is about all points of the ray and the shape, not only the reported one.", "anchors": ["src/collision/Collider.cpp: raycast, testPointInside"]}
{"id": "C80", "title": "Capsule-capsule collision is exact and its contacts are geometrically consistent", "statement": "Two capsules are reported as colliding exactly when the distance of their inner segments is below the sum of the radii; each contact has a unit normal from the first to the second shape and a positive depth, its points lie on the two surfaces, they differ by depth times normal, and moving the second capsule by depth along the normal ends the overlap.", "quantifier": "all dimensions and transforms with unit orientation", "why_tests_cant": "Continuous domain with several special cases: parallel, nearly parallel, collinear and crossing axes.", "anchors": ["src/collision/narrowphase/CapsuleVsCapsuleAlgorithm.cpp: testCollision", "include/reactphysics3d/mathematics/mathematics_functions.h: computeClosestPointBetweenTwoSegments, areParallelVectors"]}
{"id": "C81", "title": "Changing the centre of mass changes no material velocity", "statement": "setLocalCenterOfMass, updateLocalCenterOfMassFromColliders and updateMassPropertiesFromColliders keep the velocity of every material point of the body.", "quantifier": "every body state and every point", "why_tests_cant": "The relation between linear velocity, angular velocity and the moved centre must hold for every state and point.", "anchors": ["src/body/RigidBody.cpp: setLocalCenterOfMass, updateLocalCenterOfMassFromColliders, updateMassPropertiesFromColliders"]}
{"id": "C82", "title": "Placing a body elsewhere keeps its velocities", "statement": "setTransform changes the pose of a body but neither its linear nor its angular velocity.", "quantifier": "every body state and transform", "why_tests_cant": "Depends on the combination of spin, centre of mass and displacement.", "anchors": ["src/body/RigidBody.cpp: setTransform"]}
{"id": "C83", "title": "An update is a rigid motion given by the reported velocities", "statement": "The orientation of a body is a unit quaternion after every history; an update without position correction moves the centre of mass by time step times the reported linear velocity and turns every material point about it by the angle 2 atan(|w| dt / 2) around the reported angular velocity.", "quantifier": "every history of API calls with unit orientations, every time step, all velocities, every point", "why_tests_cant": "Drift and first-order integration errors accumulate over histories; the motion concerns every material point.", "anchors": ["src/systems/DynamicsSystem.cpp: integrateRigidBodiesPositions, updateBodiesState"]}
{"id": "C84", "title": "Contacts and joints see static bodies at rest", "statement": "The velocity that the contact and joint solvers use for a static body is zero.", "quantifier": "every history of API calls and updates", "why_tests_cant": "Depends on what the body was doing before it became static.", "anchors": ["src/body/RigidBody.cpp: setType", "src/systems/ContactSolverSystem.cpp: solve", "src/components/RigidBodyComponents.h: getConstrainedLinearVelocity"]}
{"id": "C85", "title": "Joints see static bodies where they are", "statement": "The pose that the position solvers of the joints use for a static body is the pose of its centre of mass and its orientation.", "quantifier": "every history of API calls and updates", "why_tests_cant": "Depends on the history of type changes, centre-of-mass changes and transforms.", "anchors": ["src/body/RigidBody.cpp: setType, setTransform", "src/systems/SolveBallAndSocketJointSystem.cpp: solvePositionConstraint"]}
{"id": "C86", "title": "Colliders follow their body", "statement": "After every call and every update the world transform of each collider equals the transform of the body composed with the local transform of the collider.", "quantifier": "every history of API calls and updates, any number of colliders", "why_tests_cant": "A stale collider transform appears only after particular orders of moves, additions and updates.", "anchors": ["src/body/Body.cpp: setTransform, updateBroadPhaseState", "src/body/RigidBody.cpp: addCollider", "src/collision/Collider.cpp: setLocalToBodyTransform", "src/systems/DynamicsSystem.cpp: updateBodiesState"]}
{"id": "C87", "title": "A single collision bounces by the restitution coefficient", "statement": "When two bodies free to move (or one immovable) touch at one new contact without friction and no force acts in the update, they separate after the solver with bounciness times the approach speed if they approached faster than the restitution threshold, and otherwise stop approaching; bodies already separating are left alone.", "quantifier": "all masses, inertia tensors, contact points, normals, velocities, any number of iterations from one on", "why_tests_cant": "An exact law over real parameters and any iteration count.", "anchors": ["src/systems/ContactSolverSystem.cpp: initializeForIsland, solve"]}
{"id": "C88", "title": "Contacts never drive bodies into each other", "statement": "A contact never makes its two bodies approach faster at the contact point than they would without it, whatever axes are locked.", "quantifier": "all masses, inertia tensors, locked axes, velocities, any number of iterations", "why_tests_cant": "Depends on the combination of inertia tensor, contact offset and locked axes.", "anchors": ["src/systems/ContactSolverSystem.cpp: initializeForIsland, solve"]}
{"id": "C89", "title": "Collisions add no kinetic energy", "statement": "With bounciness between 0 and 1 and no friction the contact solver never increases the total kinetic energy of the bodies.", "quantifier": "any number of bodies, contacts and iterations, all masses and velocities", "why_tests_cant": "An inequality over all states of a coupled iteration; gains appear only in chains of contacts.", "anchors": ["src/systems/ContactSolverSystem.cpp: solve"]}
{"id": "C90", "title": "Contacts conserve angular momentum", "statement": "Impulses between two free bodies leave their total angular momentum about any fixed point unchanged.", "quantifier": "all contacts, with and without friction, any number of iterations", "why_tests_cant": "A conservation law over all states.", "anchors": ["src/systems/ContactSolverSystem.cpp: initializeForIsland, solve"]}
{"id": "C91", "title": "Friction obeys Coulomb's law", "statement": "The friction impulse of a manifold lies in the plane orthogonal to its normal and is at most the friction coefficient times the sum of the normal impulses.", "quantifier": "all manifolds, states and iteration counts", "why_tests_cant": "Depends on the direction of sliding relative to the internal friction axes.", "anchors": ["src/systems/ContactSolverSystem.cpp: computeFrictionVectors, solve"]}
{"id": "C92", "title": "Correcting penetration gives bodies no speed", "statement": "With split impulses the velocities and stored impulses after the solver do not depend on how deep the bodies penetrate.", "quantifier": "all manifolds, depths, time steps and iteration counts", "why_tests_cant": "A statement about pairs of runs (non-interference).", "anchors": ["src/systems/ContactSolverSystem.cpp: solve"]}
{"id": "C93", "title": "Resting bodies stay at rest", "statement": "Bodies at rest in contacts without stored impulses keep zero velocity and get no impulse, as long as no force acts and penetration is not corrected through velocities.", "quantifier": "any number of contacts, coefficients and iterations", "why_tests_cant": "Any drift would be small and only seen after many updates.", "anchors": ["src/systems/ContactSolverSystem.cpp: warmStart, solve"]}
{"id": "C94", "title": "Stored contact impulses are exactly what was applied", "statement": "After an update the velocities differ from those before the solver by exactly the impulses stored in the contact manifolds, each applied once, so that impulses read from the contacts and reused by the next update are the ones the bodies received.", "quantifier": "any number of manifolds, points and iterations, all masses and velocities", "why_tests_cant": "A bookkeeping invariant across unbounded iterations.", "anchors": ["src/systems/ContactSolverSystem.cpp: warmStart, solve, storeImpulses"]}
{"id": "C95", "title": "Reported contacts are genuine", "statement": "After the narrow phase every pair found to collide is reported exactly once, with the colliders and flags found for it. Each of its reported contact points is a contact point found by the narrow phase for that pair, reported at most as often as found; at least one is reported if any was found; they form at most four manifolds of one to four points, two points of a manifold are at least the threshold apart, in a pair with a concave shape the normals of a manifold are similar to one found normal, and no point or manifold starts with an impulse. Pairs outside the given order show no contact.", "quantifier": "all narrow-phase results (any number of pairs, triangles and points) and all orders of contact pairs", "why_tests_cant": "Index arithmetic over three arrays rebuilt at each update, for an unbounded number of pairs; tests see only a few arrangements.", "anchors": ["src/systems/CollisionDetectionSystem.cpp: processPotentialContacts, reducePotentialContactManifolds, createContacts"]}
{"id": "C96", "title": "Inherited impulses come from the same place", "statement": "In any history of updates a contact point starts with the impulse of the first contact point the previous update reported for the same pair within the persistence distance, or with none if there is no such point; a manifold starts with the friction impulses of the first previous manifold of the same pair with a similar normal, or with none. Reported geometry is not changed by this.", "quantifier": "all histories of updates and all changes of impulses by the solver in between", "why_tests_cant": "Relates arrays of two updates through indices; holds for every history.", "anchors": ["src/systems/CollisionDetectionSystem.cpp: initContactsWithPreviousOnes, computeMapPreviousContactPairs"]}
{"id": "C97", "title": "A stored impulse is inherited once", "statement": "The impulse stored for a contact point is passed on to at most one contact point of the next update.", "quantifier": "all histories of updates", "why_tests_cant": "Needs coinciding neighbourhoods of points of two updates.", "anchors": ["src/systems/CollisionDetectionSystem.cpp: initContactsWithPreviousOnes"]}
{"id": "C98", "title": "A listener that follows the events knows which pairs touch", "statement": "A listener that keeps, for each callback (contacts, triggers), a set of pairs of colliders by adding the pair at a start event and taking it out at an exit event, in the order in which the events of each update are reported, knows after every update exactly the pairs whose last test found them touching, in the callback that fits their trigger flags; no start is reported for a pair already known, no stay or exit for an unknown one.", "quantifier": "every history of created, destroyed, activated, sleeping and waking bodies, changed trigger flags, world queries and updates, with every result of the collision tests", "why_tests_cant": "The state of the listener depends on the whole history; it is spoilt by interleavings of calls between updates.", "anchors": ["src/systems/CollisionDetectionSystem.cpp: addLostContactPair, removeOverlappingPair, computeLostContactPairs, reportContacts, reportTriggers", "src/collision/CollisionCallback.cpp: CallbackData", "src/collision/OverlapCallback.cpp: CallbackData"]}
{"id": "C99", "title": "Bad polygon data gives an error, never undefined behaviour", "statement": "Creating a convex mesh from polygon data whose indices are in range returns a mesh when the faces form a closed surface satisfying Euler's formula with faces of three or more vertices and a non-negligible area, and otherwise a null pointer and an error message; it never does something undefined.", "quantifier": "all vertex arrays and all lists of faces with indices in range", "why_tests_cant": "Malformed data has unbounded variety: open borders, short faces, empty lists, repeated edges.", "anchors": ["src/collision/ConvexMesh.cpp: init, createHalfEdgeStructure, computeFacesNormals", "src/collision/HalfEdgeStructure.cpp: computeHalfEdges", "src/engine/PhysicsCommon.cpp: createConvexMesh"]}
{"id": "C100", "title": "The volume of a convex mesh is the volume it encloses", "statement": "The volume of an accepted convex mesh is the volume enclosed by its faces; it does not depend on where the mesh lies and how it is turned, and the volume of a shape with non-negative scale is that enclosed by the scaled faces.", "quantifier": "all accepted meshes, rigid motions and scales (exact arithmetic)", "why_tests_cant": "Universal over meshes; a wrong sign or a missing triangle shows only for some meshes.", "anchors": ["src/collision/ConvexMesh.cpp: computeVolume", "include/reactphysics3d/collision/shapes/ConvexMeshShape.h: getVolume"]}
{"id": "C101", "title": "Face normals of a convex mesh", "statement": "An accepted mesh has one normal per face; it has unit length, points along the area vector of the face and is perpendicular to a flat face.", "quantifier": "all accepted meshes, polygons of any number of vertices (exact arithmetic)", "why_tests_cant": "Universal over polygons, including non-triangular and non-convex ones.", "anchors": ["src/collision/ConvexMesh.cpp: computeFacesNormals"]}
{"id": "C102", "title": "Centre and bounds of a convex mesh", "statement": "The bounds of a convex mesh are the smallest box around its vertices, the reported centroid is the centre of mass of the solid it encloses, and the centre of mass a body computes from convex mesh colliders is the centre of mass of their solids.", "quantifier": "all accepted meshes, scales, densities and placements of colliders", "why_tests_cant": "Tests use symmetric meshes centred at the origin, for which every notion of centre agrees.", "anchors": ["src/collision/ConvexMesh.cpp: init, getCentroid", "src/body/RigidBody.cpp: computeCenterOfMass"]}
{"id": "C103", "title": "Height-field ray casts find the first point of the surface", "statement": "A ray cast against a height-field shape ends, and reports the first point of the scaled surface met by the ray up to its maximum fraction, or nothing exactly if there is none.", "quantifier": "all grids, scales, sides and rays", "why_tests_cant": "All alignments of the ray with the grid, including rays along grid lines and borders, and rays through corners of cells.", "anchors": ["src/collision/HeightField.cpp: raycast, raycastTriangle, computeEnteringRayGridCoordinates", "src/collision/shapes/HeightFieldShape.cpp: raycast", "include/reactphysics3d/collision/shapes/AABB.h: raycast"]}
{"id": "C104", "title": "The normal reported by a height-field ray cast is the normal of the surface", "statement": "The normal reported by a ray cast against a scaled height-field shape is a unit vector orthogonal to the triangle of the scaled surface that is hit, on the side of the ray origin.", "quantifier": "all grids, scales and rays", "why_tests_cant": "Needs all scales; a uniform scale hides the error.", "anchors": ["src/collision/shapes/HeightFieldShape.cpp: raycast", "src/collision/HeightField.cpp: raycastTriangle"]}
{"id": "C105", "title": "A height field is the grid of the given heights, centred", "statement": "Creating a height field from at least two by two heights yields the grid of these heights with unit spacing, centred in all directions; its minimum and maximum heights are those given, and the bounds of the scaled shape are the smallest box around the scaled surface. Fewer rows or columns yield no field.", "quantifier": "all sizes, all heights, float, double or scaled integer data, all positive scales", "why_tests_cant": "All grid sizes and all data; the product of the sizes is computed in a narrower type.", "anchors": ["src/collision/HeightField.cpp: init, copyData, getVertexAt", "src/engine/PhysicsCommon.cpp: createHeightField", "src/collision/shapes/HeightFieldShape.cpp: getLocalBounds"]}
{"id": "C106", "title": "Joints conserve momentum", "statement": "Solving the joints of a world changes neither the total momentum nor the total angular momentum of the bodies they connect to each other.", "quantifier": "all worlds, all kinds and numbers of joints, all numbers of iterations, all velocities and impulses kept from before (exact arithmetic)", "why_tests_cant": "Every combination of joint kinds, limits, motors and kept impulses; tests look at single trajectories within tolerances.", "anchors": ["src/systems/SolveBallAndSocketJointSystem.cpp: warmstart, solveVelocityConstraint", "src/systems/SolveFixedJointSystem.cpp: warmstart, solveVelocityConstraint", "src/systems/SolveHingeJointSystem.cpp: warmstart, solveVelocityConstraint", "src/systems/SolveSliderJointSystem.cpp: warmstart, solveVelocityConstraint"]}
{"id": "C107", "title": "Joints touch only the bodies they connect", "statement": "The joints change the velocities neither of static bodies nor of bodies no joint is attached to, and never along locked axes; the velocities used only for position correction of contacts stay as they are.", "quantifier": "all worlds, joints, iterations, velocities, lock factors", "why_tests_cant": "Universal over worlds and over histories of kept impulses.", "anchors": ["src/systems/ConstraintSolverSystem.cpp: initialize, solveVelocityConstraints", "src/systems/SolveHingeJointSystem.cpp: solveVelocityConstraint"]}
{"id": "C108", "title": "A joint holds its bodies", "statement": "After an update the two anchor points of the joint solved last (of the only joint, say) have the same velocity, or approach each other at the rate of the position correction; bodies of a fixed joint turn alike, and at the anchor point of a slider the bodies only move along its axis against each other.", "quantifier": "all masses, inertias, positions, velocities, kept impulses, numbers of joints before and of iterations >= 1", "why_tests_cant": "All masses and lever arms; tests use bodies of a few kilograms.", "anchors": ["src/systems/SolveBallAndSocketJointSystem.cpp: initBeforeSolve, solveVelocityConstraint", "src/systems/SolveFixedJointSystem.cpp: initBeforeSolve, solveVelocityConstraint", "src/systems/SolveSliderJointSystem.cpp: initBeforeSolve, solveVelocityConstraint"]}
{"id": "C109", "title": "Joints leave bodies alone that move together", "statement": "If the bodies of an assembly move like parts of one rigid body and the anchor points coincide, new joints without motors and with the default position correction do not change any velocity, whatever limits are reached.", "quantifier": "all assemblies, rigid motions, numbers of joints and iterations", "why_tests_cant": "Continuum of motions and configurations, exact equality.", "anchors": ["src/systems/SolveHingeJointSystem.cpp: solveVelocityConstraint", "src/systems/SolveSliderJointSystem.cpp: solveVelocityConstraint"]}
{"id": "C110", "title": "Joints without motors take energy away", "statement": "Solving new joints without motors and without position correction in the velocities never increases the kinetic energy.", "quantifier": "all worlds, joint kinds, limits, iterations (exact arithmetic)", "why_tests_cant": "Inequality over all configurations; a gain shows only for particular inertias and arms.", "anchors": ["src/systems/SolveFixedJointSystem.cpp: initBeforeSolve", "src/systems/SolveSliderJointSystem.cpp: initBeforeSolve, solveVelocityConstraint"]}
{"id": "C111", "title": "Limits only push back, motors stay within their maximum", "statement": "A hinge or slider inside its limits gets no limit torque or force, and at a limit only one pointing back inside; the effort reported for a motor never exceeds the maximum that was set.", "quantifier": "all histories of updates with any bodies and velocities, all joints", "why_tests_cant": "Invariant over unbounded histories because impulses are kept from update to update.", "anchors": ["src/systems/SolveHingeJointSystem.cpp: initBeforeSolve, solveVelocityConstraint", "src/systems/SolveSliderJointSystem.cpp: initBeforeSolve, solveVelocityConstraint", "src/constraint/HingeJoint.cpp: getReactionTorque, getMotorTorque", "src/constraint/SliderJoint.cpp: getReactionForce, getMotorForce"]}
{"id": "C112", "title": "Motors reach their speed", "statement": "After an update the motor of the joint solved last has brought the bodies to the wanted speed, or uses its full force (torque) and has not brought them beyond that speed.", "quantifier": "all speeds, maxima, masses, velocities and numbers of iterations >= 1", "why_tests_cant": "All initial velocities and numbers of iterations.", "anchors": ["src/systems/SolveHingeJointSystem.cpp: solveVelocityConstraint", "src/systems/SolveSliderJointSystem.cpp: solveVelocityConstraint"]}
{"id": "C113", "title": "The angle of a hinge", "statement": "The angle a hinge works with is the angle by which its second body was turned about the axis relative to the first since creation, up to full turns, within the limits if some number of turns brings it there; turning the whole assembly does not change it.", "quantifier": "all orientations at creation and now, either quaternion sign, all angles and limits", "why_tests_cant": "Continuum of orientations, and special values at half turns.", "anchors": ["src/systems/SolveHingeJointSystem.cpp: computeCurrentHingeAngle, computeNormalizedAngle, computeCorrespondingAngleNearLimits", "src/constraint/HingeJoint.cpp: HingeJoint"]}
{"id": "C114", "title": "Reported joint forces are those applied", "statement": "The velocity changes joints make in an update are those of the reaction forces and torques they report, acting at the anchor points for the length of the step.", "quantifier": "all worlds, joints, kept impulses and numbers of iterations", "why_tests_cant": "Sum over all iterations and kept impulses, exact equality.", "anchors": ["src/constraint/BallAndSocketJoint.cpp: getReactionForce, getReactionTorque", "src/constraint/HingeJoint.cpp: getReactionForce, getReactionTorque", "src/constraint/SliderJoint.cpp: getReactionForce, getReactionTorque", "src/constraint/FixedJoint.cpp: getReactionForce, getReactionTorque"]}
{"id": "C115", "title": "Position correction of joints leaves alone what it should", "statement": "The position correction of an update does not move bodies without joints of that technique, bodies that are not dynamic, or dynamic bodies along locked linear axes, does not turn bodies with all rotations locked, and keeps orientations of unit length.", "quantifier": "all worlds, joints of every kind, poses and numbers of iterations", "why_tests_cant": "Every joint, pose and number of iterations.", "anchors": ["src/systems/SolveBallAndSocketJointSystem.cpp: solvePositionConstraint", "src/systems/SolveFixedJointSystem.cpp: solvePositionConstraint", "src/systems/SolveHingeJointSystem.cpp: solvePositionConstraint", "src/systems/SolveSliderJointSystem.cpp: solvePositionConstraint", "src/engine/PhysicsWorld.cpp: solvePositionCorrection"]}
{"id": "C116", "title": "Position correction keeps the centre of mass", "statement": "The position correction of joints between dynamic bodies does not move the common centre of mass of any group of bodies joined only among themselves.", "quantifier": "all worlds, groups of bodies, joints, poses and numbers of iterations", "why_tests_cant": "Exact equality over a continuum of poses and any number of joints.", "anchors": ["src/systems/SolveBallAndSocketJointSystem.cpp: solvePositionConstraint", "src/systems/SolveFixedJointSystem.cpp: solvePositionConstraint", "src/systems/SolveHingeJointSystem.cpp: solvePositionConstraint", "src/systems/SolveSliderJointSystem.cpp: solvePositionConstraint", "src/engine/PhysicsWorld.cpp: solvePositionCorrection"]}
{"id": "C117", "title": "Position correction closes ball-and-socket joints", "statement": "Each iteration of the position correction of a ball-and-socket joint without cone limit leaves a gap between the anchor points of at most a constant times the square of the gap before, so that it converges quadratically once the gap is below a bound given by masses, inertias and arm lengths, whatever other joints there are between other bodies.", "quantifier": "all masses, inertias, arms, gaps, orientations and numbers of iterations", "why_tests_cant": "Rate of convergence over a continuum of configurations.", "anchors": ["src/systems/SolveBallAndSocketJointSystem.cpp: solvePositionConstraint", "src/engine/PhysicsWorld.cpp: solvePositionCorrection"]}
{"id": "C118", "title": "Joints that fit are not moved", "statement": "If all joints are assembled as created and within their limits after the velocities were integrated, the position correction moves nothing.", "quantifier": "all worlds with fitting joints, all numbers of iterations", "why_tests_cant": "Continuum of poses; the error is a second-order term in the angular velocity.", "anchors": ["src/systems/SolveBallAndSocketJointSystem.cpp: solvePositionConstraint", "src/systems/SolveFixedJointSystem.cpp: solvePositionConstraint", "src/systems/SolveHingeJointSystem.cpp: solvePositionConstraint", "src/systems/SolveSliderJointSystem.cpp: solvePositionConstraint", "src/engine/PhysicsWorld.cpp: solvePositionCorrection", "src/systems/DynamicsSystem.cpp: integrateRigidBodiesPositions"]}
{"id": "C119", "title": "The technique of one joint does not affect others", "statement": "Joints corrected through the velocities (Baumgarte) have no influence on the position correction of the others: it does the same as if they were not there.", "quantifier": "all worlds with joints of both techniques in any order", "why_tests_cant": "Any number and order of joints of four kinds.", "anchors": ["src/systems/SolveBallAndSocketJointSystem.cpp: solvePositionConstraint", "src/systems/SolveFixedJointSystem.cpp: solvePositionConstraint", "src/systems/SolveHingeJointSystem.cpp: solvePositionConstraint", "src/systems/SolveSliderJointSystem.cpp: solvePositionConstraint", "src/engine/PhysicsWorld.cpp: solvePositionCorrection"]}
{"id": "C120", "title": "Position correction of limits", "statement": "The position correction brings a joint that is beyond a limit to the limit and not past it.", "quantifier": "all joints with limits, poses, masses and numbers of iterations", "why_tests_cant": "Continuum of poses.", "anchors": ["src/systems/SolveBallAndSocketJointSystem.cpp: solvePositionConstraint", "src/systems/SolveSliderJointSystem.cpp: solvePositionConstraint"]}
{"id": "C121", "title": "Position correction closes fixed joints", "statement": "Each iteration of the position correction of a fixed joint leaves an orientation error of at most a constant times the square of the error before (including what closing the gap adds), and a gap bounded by the square of the gap and the error of the orientation, whichever of the two quaternions represents an orientation and whatever other joints there are between other bodies.", "quantifier": "all masses, inertias, arms, gaps, orientations and numbers of iterations", "why_tests_cant": "Rate of convergence over a continuum of configurations.", "anchors": ["src/systems/SolveFixedJointSystem.cpp: solvePositionConstraint", "src/mathematics/Quaternion.h: normalize"]}
{"id": "C122", "title": "Position correction aligns the axes of hinges", "statement": "Each iteration of the position correction of a hinge without limits whose axes are less than 60 degrees apart leaves the sine of the angle between the axes of at most a constant times its square before plus what closing the gap adds, and a gap bounded likewise.", "quantifier": "all masses, inertias, arms, gaps, axes, orientations and numbers of iterations", "why_tests_cant": "Rate of convergence over a continuum of configurations.", "anchors": ["src/systems/SolveHingeJointSystem.cpp: solvePositionConstraint"]}
{"id": "C123", "title": "The distance test always ends", "statement": "Testing two convex shapes for collision (distance phase) ends for every pair of shapes with finitely many vertices, whatever axis was kept from the frame before, and its answer is determined by the input.", "quantifier": "all shapes, poses, radii and cached axes", "why_tests_cant": "Termination of an iterative search over a continuum of inputs.", "anchors": ["src/collision/narrowphase/GJK/GJKAlgorithm.cpp: testCollision", "src/collision/narrowphase/GJK/VoronoiSimplex.cpp: recomputeClosestPoint, computeClosestPointOnSegment, computeClosestPointOnTriangle, computeClosestPointOnTetrahedron, isPointInSimplex, isAffinelyDependent"]}
{"id": "C124", "title": "Collisions in the margin are real", "statement": "If the distance test reports that two shapes overlap in their margins, they do; the contact it gives has a unit normal, a positive depth, and points on the surfaces of the two shapes that differ by depth times normal.", "quantifier": "all shapes given by vertices and a margin, poses and cached axes", "why_tests_cant": "Continuum of configurations; the invariant ties the search state to the shapes.", "anchors": ["src/collision/narrowphase/GJK/GJKAlgorithm.cpp: testCollision", "src/collision/narrowphase/GJK/VoronoiSimplex.cpp: recomputeClosestPoint, computeClosestPointOnSegment, computeClosestPointOnTriangle, computeClosestPointOnTetrahedron, isPointInSimplex, isAffinelyDependent"]}
{"id": "C125", "title": "Overlapping shapes are found by the distance test", "statement": "If the distance test reports two shapes as separated, they do not overlap; if it reports a contact, moving one shape by depth times normal ends the overlap; both up to a small error.", "quantifier": "all shapes given by vertices and a margin, poses and cached axes", "why_tests_cant": "Universally quantified over shapes and poses; the early exits of the search must all be sound.", "anchors": ["src/collision/narrowphase/GJK/GJKAlgorithm.cpp: testCollision", "src/collision/narrowphase/GJK/VoronoiSimplex.cpp: recomputeClosestPoint, computeClosestPointOnSegment, computeClosestPointOnTriangle, computeClosestPointOnTetrahedron, isPointInSimplex, isAffinelyDependent"]}
{"id": "C126", "title": "Spheres against convex polyhedra", "statement": "Testing a sphere against a box or a convex mesh ends; a reported collision is real and every overlap is reported (up to a small error); the contact ends the overlap; and a sphere whose centre is inside the polyhedron gets the contact of the shortest translation that ends the overlap.", "quantifier": "all polyhedra, radii, poses and orders of the two shapes", "why_tests_cant": "Continuum of configurations; minimality over all translations.", "anchors": ["src/collision/narrowphase/SphereVsConvexPolyhedronAlgorithm.cpp: testCollision", "src/collision/narrowphase/SAT/SATAlgorithm.cpp: testCollisionSphereVsConvexPolyhedron", "src/collision/narrowphase/GJK/GJKAlgorithm.cpp: testCollision"]}
{"id": "C127", "title": "A triangle mesh is made of exactly the good triangles of the user", "statement": "PhysicsCommon::createTriangleMesh, for arrays of vertices, optional normals and triangle indices, ends without undefined behaviour, logs exactly the messages that are due (index out of range, zero area, zero edge, short normal, no triangle left), returns a mesh exactly when the indices are in range, some triangle has an area and edges, and the normals used are not too short; the mesh then holds exactly those triangles in their order and exactly the vertices they use.", "quantifier": "for every array of vertices, normals and triangles", "why_tests_cant": "The unused vertices are removed by shifting all indices for each of them; tests use a few clean meshes.", "anchors": ["src/collision/TriangleMesh.cpp: TriangleMesh::init, computeEpsilon, copyData, removeUnusedVertices", "src/engine/PhysicsCommon.cpp: PhysicsCommon::createTriangleMesh"]}
{"id": "C128", "title": "Computed normals of mesh vertices are angle weighted", "statement": "When the user gives no normals, the normal of each vertex of a triangle mesh has length one and the direction of the sum of the unit normals of the triangles around it, each times the angle of its corner at the vertex.", "quantifier": "for every accepted mesh and every vertex of it", "why_tests_cant": "The accumulation over all faces depends on the whole connectivity; a test compares a few symmetric meshes.", "anchors": ["src/collision/TriangleMesh.cpp: TriangleMesh::computeVerticesNormals"]}
{"id": "C129", "title": "Box queries on a concave mesh shape report exactly the triangles whose boxes meet", "statement": "The triangles tested for a shape near a concave mesh shape are exactly those whose scaled bounding box meets the given box, each once, with its scaled vertices, normals and identifier; the local bounds are the smallest box around the scaled surface; setting a scale is the same as making the shape with it.", "quantifier": "for every accepted mesh, scale and query box", "why_tests_cant": "Meshes of any size, any tree, any box; missing one triangle lets bodies fall through the mesh.", "anchors": ["src/collision/shapes/ConcaveMeshShape.cpp: computeOverlappingTriangles, getLocalBounds, setScale, getTriangleVertices, getTriangleVerticesNormals", "src/collision/TriangleMesh.cpp: initBVHTree, getBounds"]}
{"id": "C130", "title": "A ray cast on a concave mesh shape returns the nearest triangle", "statement": "Casting a ray on a concave mesh shape returns the nearest of the hits of its triangles on the tested side, with point, normal and triangle index, and no hit only if the ray misses them all.", "quantifier": "for every accepted mesh, scale without zeros, tested side and ray", "why_tests_cant": "Meshes of any size, any tree and any ray; special rays are exactly those that tests use.", "anchors": ["src/collision/shapes/ConcaveMeshShape.cpp: raycast, ConcaveMeshRaycastCallback", "src/collision/broadphase/DynamicAABBTree.cpp: DynamicAABBTree::raycast", "include/reactphysics3d/collision/shapes/AABB.h: AABB::testRayIntersect"]}
{"id": "C131", "title": "World queries see every collider where it is", "statement": "At any moment between two calls, a world query considers every collider of an active body at its present place and with its present size, and no collider of an inactive body.", "quantifier": "for every history of creating, removing, moving, resizing, (de)activating, sleeping and stepping", "why_tests_cant": "Depends on the whole history of calls: stale places appear only after particular orders of calls.", "anchors": ["src/engine/PhysicsWorld.cpp: createRigidBody, destroyRigidBody, update", "src/body/Body.cpp: removeCollider, updateBroadPhaseState, setIsActive, setTransform", "src/body/RigidBody.cpp: addCollider, setTransform, setIsActive, setIsSleeping", "src/collision/Collider.cpp: setLocalToBodyTransform", "src/systems/BroadPhaseSystem.cpp: addCollider, removeCollider, updateColliderInternal, updateCollidersComponents", "src/collision/shapes/CollisionShape.cpp: notifyColliderAboutChangedSize"]}
{"id": "C132", "title": "The ray cast of a world reports the right hits", "statement": "A ray cast on a world reports colliders whose category matches the mask, each at most once, with the first point of the ray in the collider and its outward unit normal; it obeys the answers of the callback (0 stops, -1 ignores, 1 continues without clipping, the fraction clips) and misses no collider on the rest of the ray; a callback that answers with the fraction ends with the closest hit.", "quantifier": "for every reachable world, ray, mask and callback", "why_tests_cant": "Any number of bodies, any tree, any callback; the order of the calls is not specified.", "anchors": ["include/reactphysics3d/engine/PhysicsWorld.h: raycast", "src/systems/CollisionDetectionSystem.cpp: raycast", "src/systems/BroadPhaseSystem.cpp: raycast, raycastBroadPhaseShape", "src/collision/RaycastInfo.cpp: raycastAgainstShape", "src/collision/Collider.cpp: raycast", "include/reactphysics3d/collision/RaycastInfo.h: RaycastCallback::notifyRaycastHit"]}
{"id": "C133", "title": "The ray cast of a body returns its nearest collider", "statement": "A ray cast on a body returns true exactly if the ray meets a collider of the body, and then the fraction, point and normal of the nearest hit; on an inactive body it returns false.", "quantifier": "for every reachable world, body and ray", "why_tests_cant": "Any number of colliders in any order.", "anchors": ["src/body/Body.cpp: Body::raycast", "src/collision/Collider.cpp: Collider::raycast"]}
{"id": "C134", "title": "Overlap and collision queries tell which bodies touch", "statement": "testOverlap and testCollision for two bodies, for one body and for the whole world report, once each, pairs of colliders of different active bodies whose shapes intersect, and report every such pair that the filters allow; a query about the world leaves out colliders that are excluded from world queries, and so do the others; the collision queries report the same pairs except those with a trigger.", "quantifier": "every history of calls and updates, every pair of bodies, every outcome of the narrow phase, every setting of flags", "why_tests_cant": "The queries search the pairs kept for the simulation, whose state depends on the whole history: which bodies sleep, moved or were filtered since the last update.", "anchors": ["src/systems/CollisionDetectionSystem.cpp: testOverlap, testCollision, filterOverlappingPairs, computeOverlapSnapshotContactPairs", "include/reactphysics3d/engine/PhysicsWorld.h: testOverlap, testCollision"]}
{"id": "C135", "title": "Queries leave the simulation alone", "statement": "A call of testOverlap or testCollision between two updates does not change what the following updates compute.", "quantifier": "every history, every query, every sequence of calls and updates after it", "why_tests_cant": "The queries run the broad phase and set flags of the pairs that the next update reads; whether a trace remains depends on what is called in between.", "anchors": ["src/systems/CollisionDetectionSystem.cpp: testOverlap, testCollision, computeBroadPhase, computeMiddlePhase"]}
{"id": "C136", "title": "Two polyhedra are reported apart only if they are apart, and always if a face separates them", "statement": "The test of two placed convex polyhedra (boxes, convex meshes, or one of them a triangle) ends without undefined behaviour. If it answers that they do not collide, some plane separates them. If the plane of a face of one of them separates them, and the pair is new or did not collide in the last frame, it answers that they do not collide.", "quantifier": "for all convex polyhedra with a consistent half-edge structure (all boxes), positions, orientations, data kept from the last frame", "why_tests_cant": "The answer depends on all faces and pairs of edges and on tolerances; finitely many poses cannot cover the borderline ones.", "anchors": ["src/collision/narrowphase/SAT/SATAlgorithm.cpp:SATAlgorithm::testCollisionConvexPolyhedronVsConvexPolyhedron", "src/collision/narrowphase/SAT/SATAlgorithm.cpp:SATAlgorithm::testFacesDirectionPolyhedronVsPolyhedron", "src/collision/narrowphase/SAT/SATAlgorithm.cpp:SATAlgorithm::computePolyhedronVsPolyhedronFaceContactPoints"]}
{"id": "C137", "title": "Contacts of two polyhedra lie on their surfaces and span the depth of the overlap", "statement": "If two placed convex polyhedra are reported as colliding, there is at least one contact; all contacts have the same unit normal, from the first to the second. Either the normal is that of a face, and each contact joins a point of the plane of this face, between its sides, with a point of the face of the other polyhedron that is turned most against it, the two points differing by depth times normal; or there is one contact between two nearest points of two edges, with the depth of the overlap along the normal. No depth exceeds the depth of the overlap along the normal; for a new pair or one that did not collide in the last frame this is at most 1 percent plus 0.002 above the depth along the normal of any face. Not asking for contacts changes neither the answer nor what is kept for the next frame.", "quantifier": "for all convex polyhedra with a consistent half-edge structure, positions, orientations", "why_tests_cant": "Contacts come from clipping polygons against the sides of faces and from closest points of edges, with choices by tolerances; tests can only compare a few configurations.", "anchors": ["src/collision/narrowphase/SAT/SATAlgorithm.cpp:SATAlgorithm::testCollisionConvexPolyhedronVsConvexPolyhedron", "src/collision/narrowphase/SAT/SATAlgorithm.cpp:SATAlgorithm::computeDistanceBetweenEdges", "src/collision/narrowphase/SAT/SATAlgorithm.cpp:SATAlgorithm::testEdgesBuildMinkowskiFace"]}
{"id": "C138", "title": "The answer about two polyhedra does not depend on earlier frames", "statement": "Whatever the poses in earlier frames, the test of two convex polyhedra gives the same answer as for a pair that is tested for the first time.", "quantifier": "for all sequences of poses of a pair, without a bound on the number of frames", "why_tests_cant": "The axis of the last frame is tried first; whether it may be kept depends on the whole history of poses.", "anchors": ["src/collision/narrowphase/SAT/SATAlgorithm.cpp:SATAlgorithm::testCollisionConvexPolyhedronVsConvexPolyhedron", "include/reactphysics3d/engine/OverlappingPairs.h:LastFrameCollisionInfo"]}
{"id": "C139", "title": "Contacts with a triangle of a mesh are consistent after smoothing", "statement": "Every triangle that is not degenerate can be tested against a convex polyhedron as in C136 and C137. The contacts reported keep their depth and their point on the triangle; the normal is a unit vector on the same side as the normal found by the test: it is the normal of the triangle if the point is inside the triangle and the interpolated normal of the vertices if it is on its border, up to the sign. The two points differ by depth times normal, and the point on the other shape moves by at most the square root of two times the depth. For a contact on the common edge of two triangles with the same normals at its ends, both triangles give the same result.", "quantifier": "for all triangles with an area, normals of vertices, polyhedra, poses, contacts; the triangle first or second", "why_tests_cant": "The result depends on real positions and normals with a case distinction along the border of the triangle and on the order of the shapes.", "anchors": ["include/reactphysics3d/collision/shapes/TriangleShape.h:TriangleShape::computeSmoothLocalContactNormalForTriangle", "src/collision/shapes/TriangleShape.cpp:TriangleShape::computeSmoothMeshContact", "include/reactphysics3d/collision/shapes/TriangleShape.h:TriangleShape::computeSmoothTriangleMeshContact"]}
{"id": "C140", "title": "Contacts with a triangle of a mesh lie on both shapes and turn without jumps", "statement": "After smoothing, the point on the other shape is still a point of that shape, and contacts of one triangle that are close to each other have normals that are close to each other.", "quantifier": "for all triangles with an area, unit normals of vertices, contacts", "why_tests_cant": "Needs limits of contact positions towards the border of a triangle, and all poses of the other shape.", "anchors": ["include/reactphysics3d/collision/shapes/TriangleShape.h:TriangleShape::computeSmoothLocalContactNormalForTriangle", "src/collision/shapes/TriangleShape.cpp:TriangleShape::computeSmoothMeshContact"]}
{"id": "C141", "title": "A capsule and a polyhedron reported apart by the separating axis test are apart", "statement": "If the test of a capsule against a convex polyhedron answers that they do not touch, a plane separates them, whether contacts are asked for or not; if a face of the polyhedron separates them, the test says so. It always comes to an end and reads no memory outside of its arrays.", "quantifier": "for all convex polyhedra, capsules, placements", "why_tests_cant": "All relative poses of all polyhedra; failures need poses near the border of a face or small shapes that suites do not enumerate.", "anchors": ["src/collision/narrowphase/SAT/SATAlgorithm.cpp:SATAlgorithm::testCollisionCapsuleVsConvexPolyhedron", "src/collision/narrowphase/SAT/SATAlgorithm.cpp:SATAlgorithm::computePolyhedronFaceVsCapsulePenetrationDepth", "src/collision/narrowphase/SAT/SATAlgorithm.cpp:SATAlgorithm::computeEdgeVsCapsuleInnerSegmentPenetrationDepth"]}
{"id": "C142", "title": "Contacts of a capsule and a polyhedron describe their overlap", "statement": "All contacts of a capsule and a convex polyhedron have one unit normal leading from the first shape to the second and one depth; moving the capsule by the depth along it separates the shapes and less does not, and no face, and no edge that crosses the axis of the capsule at more than a tiny angle, gives a smaller depth. The points are on the surface of the capsule and on the face (at most a millimetre in front of it) or edge of the polyhedron.", "quantifier": "for all convex polyhedra, capsules, placements, both orders of the shapes", "why_tests_cant": "The depth and the points must be right for every relative pose; tests check a few symmetric ones.", "anchors": ["src/collision/narrowphase/SAT/SATAlgorithm.cpp:SATAlgorithm::testCollisionCapsuleVsConvexPolyhedron", "src/collision/narrowphase/SAT/SATAlgorithm.cpp:SATAlgorithm::computeCapsulePolyhedronFaceContactPoints"]}
{"id": "C143", "title": "A capsule collides with a polyhedron exactly if the test says so, up to a small error", "statement": "If the test of a capsule against a convex polyhedron reports a collision, the polyhedron is closer to the axis of the capsule than the radius. If it reports none, the overlap is not deeper than a centimetre or a small part of the size of the shapes. Moving the second shape along the normal of the first contact by its depth ends the overlap up to that error. The test always comes to an end.", "quantifier": "for all convex polyhedra, capsules, placements, axes kept from earlier frames; with and without contacts; both orders of the shapes", "why_tests_cant": "Combines an iterative algorithm with a fallback; which of them answers depends on the real values of the whole pose.", "anchors": ["src/collision/narrowphase/CapsuleVsConvexPolyhedronAlgorithm.cpp:CapsuleVsConvexPolyhedronAlgorithm::testCollision", "src/collision/narrowphase/GJK/GJKAlgorithm.cpp:GJKAlgorithm::testCollision", "src/collision/narrowphase/SAT/SATAlgorithm.cpp:SATAlgorithm::testCollisionCapsuleVsConvexPolyhedron"]}
{"id": "C144", "title": "Further contacts of a capsule lying on a polyhedron agree with the first", "statement": "A colliding capsule and polyhedron have either the contacts of C142, or one contact between their surfaces and at most two more, which have the same depth and lie on the surface of the capsule and over one face, at most a millimetre in front of it. The normal of that face is theirs and is parallel to that of the first contact up to 0.0032 radians.", "quantifier": "for all convex polyhedra, capsules, placements, axes kept from earlier frames, both orders of the shapes", "why_tests_cant": "Whether further contacts are added depends on thresholds on angles between real vectors.", "anchors": ["src/collision/narrowphase/CapsuleVsConvexPolyhedronAlgorithm.cpp:CapsuleVsConvexPolyhedronAlgorithm::testCollision", "src/collision/narrowphase/SAT/SATAlgorithm.cpp:SATAlgorithm::computeCapsulePolyhedronFaceContactPoints"]}
{"id": "C145", "title": "Destroying a body destroys its joints and nothing else", "statement": "After any history of creating and destroying bodies and joints, sleeping, activating and changing the type of bodies, destroyRigidBody releases the body and exactly the joints that hold it, each once; the other bodies and joints stay, both bodies of every remaining joint exist, and later calls on living objects are defined.", "quantifier": "for all histories of calls, whatever bodies sleep at the time of the destruction", "why_tests_cant": "Whether an unrelated joint is hit depends on the order of the components, which the history of sleeping bodies determines.", "anchors": ["src/engine/PhysicsWorld.cpp:PhysicsWorld::destroyRigidBody", "src/engine/PhysicsWorld.cpp:PhysicsWorld::destroyJoint", "src/engine/PhysicsWorld.cpp:PhysicsWorld::createJoint", "src/body/RigidBody.cpp:RigidBody::setIsSleeping", "src/components/Components.cpp:Components::setIsEntityDisabled", "include/reactphysics3d/components/RigidBodyComponents.h:RigidBodyComponents::getJoints"]}
{"id": "C146", "title": "Destroying a world releases everything exactly once", "statement": "After any history of a world, destroying it releases every body and every joint that still exists exactly once, without using an object that was released before.", "quantifier": "for all histories of calls, whatever bodies sleep and in whatever order the joints are stored", "why_tests_cant": "The loops of the destructor remove elements from the arrays they run over; which elements they miss depends on the history.", "anchors": ["src/engine/PhysicsWorld.cpp:PhysicsWorld::~PhysicsWorld", "src/engine/PhysicsCommon.cpp:PhysicsCommon::destroyPhysicsWorld", "src/components/Components.cpp:Components::removeComponent"]}
{"id": "C147", "title": "Bodies, colliders, shapes and worlds agree about each other", "statement": "After any history of creating and destroying worlds, shapes, bodies and colliders, activating bodies, changing roles of colliders and resizing shapes, getCollider of a body enumerates each of its colliders once, a resized shape tells exactly the colliders that use it in whatever world, destroying a body or a world destroys exactly its own colliders, exactly the colliders of active bodies are in the broad phase, and once all worlds are destroyed no shape is in use.", "quantifier": "for all histories of calls on existing objects in which a collider is removed from its own body and a shape is destroyed only while unused, over any number of worlds", "why_tests_cant": "The lists are kept twice, in the body and in the shape, and shapes are shared between bodies and worlds; a stale entry shows only after a particular sequence of calls.", "anchors": ["src/body/RigidBody.cpp:RigidBody::addCollider", "src/body/Body.cpp:Body::removeCollider", "src/body/Body.cpp:Body::removeAllColliders", "src/body/Body.cpp:Body::setIsActive", "src/collision/shapes/CollisionShape.cpp:CollisionShape::notifyColliderAboutChangedSize", "src/engine/PhysicsWorld.cpp:PhysicsWorld::destroyRigidBody", "src/engine/PhysicsCommon.cpp:PhysicsCommon::release"]}
{"id": "C148", "title": "A collider is a trigger or takes part in the simulation, never both", "statement": "After any history of calls no collider is a trigger and a simulation collider at the same time; setting one role ends the other, clearing one leaves the other as it was, other colliders keep their roles, and a contact is solved exactly if both its colliders are simulation colliders.", "quantifier": "for all histories of calls on existing objects", "why_tests_cant": "The two setters call each other and keep a flag in the body that a later contact depends on; a wrong flag shows only after particular sequences of adding, removing and changing colliders.", "anchors": ["src/collision/Collider.cpp:Collider::setIsTrigger", "src/collision/Collider.cpp:Collider::setIsSimulationCollider", "src/body/Body.cpp:Body::updateHasSimulationCollider", "src/body/RigidBody.cpp:RigidBody::addCollider", "src/engine/PhysicsWorld.cpp:PhysicsWorld::createIslands"]}
{"id": "C149", "title": "Stack is last in, first out", "statement": "After any history of constructing stacks with any capacity, copying them, pushing (also a copy of the top element), popping, reading and assigning the top and clearing, every value returned by pop, top and size is that of a last-in-first-out list, and copies are independent of their source.", "quantifier": "for all histories over any number of stacks, all element types, capacities and sizes", "why_tests_cant": "The array grows at sizes that depend on the history and on rounding in single precision; reading a released element usually still returns the old value.", "anchors": ["include/reactphysics3d/containers/Stack.h:Stack::push", "include/reactphysics3d/containers/Stack.h:Stack::pop", "include/reactphysics3d/containers/Stack.h:Stack::allocate", "include/reactphysics3d/containers/Stack.h:Stack::clear"]}
{"id": "C150", "title": "Edges of a hull under construction are listed once, each beside its twin", "statement": "While a convex hull is built, after any history of adding and removing half-edges, the list starting at getHalfEdges() enumerates exactly the half-edges added and not removed, getNbHalfEdges() is their number, the twin of a half-edge is the one with exchanged ends and stands directly beside it, so on a closed polyhedron taking every second half-edge gives each edge once; destruction releases every half-edge exactly once.", "quantifier": "for all histories of adding and removing half-edges between any vertices, of any length", "why_tests_cant": "A wrong link shows only after particular interleavings of insertions beside twins and removals; the assertions are compiled out in release builds.", "anchors": ["src/utils/quickhull/QHHalfEdgeStructure.cpp:QHHalfEdgeStructure::addFace", "src/utils/quickhull/QHHalfEdgeStructure.cpp:QHHalfEdgeStructure::addEdgeToLinkedListBefore", "src/utils/quickhull/QHHalfEdgeStructure.cpp:QHHalfEdgeStructure::removeEdgeFromLinkedList", "src/utils/quickhull/QHHalfEdgeStructure.cpp:QHHalfEdgeStructure::removeHalfEdge", "src/utils/quickhull/QHHalfEdgeStructure.cpp:QHHalfEdgeStructure::~QHHalfEdgeStructure"]}
{"id": "C151", "title": "Faces and vertices of a hull under construction are listed once", "statement": "While a convex hull is built, after any history of adding and removing faces and vertices, the lists starting at getFaces() and getVertices() enumerate exactly those added and not removed, the newest first, getNbFaces() and getNbVertices() are their numbers, and destruction releases each of them exactly once.", "quantifier": "for all histories of additions and removals, of any length and in any order", "why_tests_cant": "Removing the first, the last, a middle or the only element takes different branches, and a wrong back link shows only at a later removal.", "anchors": ["src/utils/quickhull/QHHalfEdgeStructure.cpp:QHHalfEdgeStructure::addVertex", "src/utils/quickhull/QHHalfEdgeStructure.cpp:QHHalfEdgeStructure::removeVertex", "src/utils/quickhull/QHHalfEdgeStructure.cpp:QHHalfEdgeStructure::addFaceToLinkedList", "src/utils/quickhull/QHHalfEdgeStructure.cpp:QHHalfEdgeStructure::removeFaceFromLinkedList", "src/utils/quickhull/QHHalfEdgeStructure.cpp:QHHalfEdgeStructure::deleteFace", "src/utils/quickhull/QHHalfEdgeStructure.cpp:QHHalfEdgeStructure::~QHHalfEdgeStructure"]}
{"id": "C152", "title": "Going round a face of a hull visits its edges once, in order", "statement": "While a convex hull is built, after any history of adding faces with any numbers of vertices and removing faces, following the edges of a face visits exactly the edges made for it, each once and in the order of its vertices, forward and backward links are inverse, and removing a face releases exactly its own edges.", "quantifier": "for all histories of adding and removing faces, with any number of faces and of vertices per face", "why_tests_cant": "The loops round a face end only if the links close; the number of vertices of a face and the order of removals are unbounded.", "anchors": ["src/utils/quickhull/QHHalfEdgeStructure.cpp:QHHalfEdgeStructure::addFace", "src/utils/quickhull/QHHalfEdgeStructure.cpp:QHHalfEdgeStructure::removeFace", "src/utils/quickhull/QHHalfEdgeStructure.cpp:QHHalfEdgeStructure::removeHalfEdge", "include/reactphysics3d/utils/quickhull/QHHalfEdgeStructure.h:Face::recalculateFace"]}
