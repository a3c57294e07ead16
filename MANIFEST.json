{
 "claims": [
  {
   "property": "C01",
   "status": "proved",
   "theorems": [
    "C01_array_is_a_sequence",
    "C01_array_elements_initialised"
   ],
   "note": "Refinement of the buffer model to finite sequences over all histories on any number of arrays. Calls outside the contract (index out of range, remove of an absent value, self-append, copying an own element, bulk growth beyond 2^24 elements) are excluded by the specification and listed in C58."
  },
  {
   "property": "C02",
   "status": "proved",
   "theorems": [
    "C02_deque_is_a_sequence"
   ],
   "note": "Refinement of the buffer model to finite sequences over all histories of in-contract calls on any number of deques (copies and assignments from deques only when their content starts in the window the copy assumes; see C03)."
  },
  {
   "property": "C03",
   "status": "partial",
   "theorems": [
    "C03_deque_copy_partial",
    "C03_deque_copy_back_only_partial",
    "C03_deque_copy_refuted",
    "C03_deque_assign_refuted"
   ],
   "note": "Refuted: copying or assigning a deque that has grown at the front reads or writes out of place. Proved: the copy is faithful under the stated position condition, in particular when only the back was ever used."
  },
  {
   "property": "C04",
   "status": "proved",
   "theorems": [
    "C04_map_is_a_partial_function",
    "C04_equality_is_extensional"
   ],
   "note": "Refinement to association lists for every hash function, all histories on any number of maps. Excluded calls: operator[] on a missing key, add of a present key without overwrite (asserted in the code), growth after clear(true) (see C07), reserve beyond 2^63."
  },
  {
   "property": "C05",
   "status": "proved",
   "theorems": [
    "C05_set_is_a_finite_set"
   ],
   "note": "Same table with unit values; equality of sets although the code only checks one inclusion."
  },
  {
   "property": "C06",
   "status": "proved",
   "theorems": [
    "C06_iteration_visits_each_once",
    "C06_remove_during_iteration"
   ],
   "note": "Iteration order is unspecified but stable under removal; the iterator returned by remove continues behind the removed entry."
  },
  {
   "property": "C07",
   "status": "partial",
   "theorems": [
    "C07_add_after_release_refuted",
    "C07_clear_release_refuted",
    "C07_reserve_after_release_loses_entry_refuted",
    "C07_reserve_after_release_loops_refuted"
   ],
   "note": "Refuted for every history: after clear(true) on a table with memory any add is undefined behaviour, because the free-list head is not reset. Lookups, size, clear, copies and assignment remain correct (C04)."
  },
  {
   "property": "C08",
   "status": "partial",
   "theorems": [
    "C08_reserve_partial",
    "C08_reserve_refuted"
   ],
   "note": "Refuted: reserve(64) provides for 48 entries only. Proved: the bucket count is at least n, contents are preserved (C04) and no growth occurs up to 3n/4 entries."
  },
  {
   "property": "C09",
   "status": "proved",
   "theorems": [
    "C09_is_power_of_two_correct",
    "C09_next_power_of_two_least",
    "C09_next_power_of_two_overflow"
   ],
   "note": "All 64-bit inputs; above 2^63 the result is 1 (stated separately)."
  },
  {
   "property": "C10",
   "status": "proved",
   "theorems": [
    "C10_pair_id_symmetric",
    "C10_pair_id_injective",
    "C10_pair_id_no_overflow"
   ],
   "note": "All pairs of 32-bit numbers, with the 64-bit wrap in the model."
  },
  {
   "property": "C11",
   "status": "proved",
   "theorems": [
    "C11_heap_blocks",
    "C11_heap_progress"
   ],
   "note": "All histories of allocations and releases of live blocks, any answers of the base allocator that do not overlap memory already obtained. Memory unit headers are stored field by field at integer addresses; sizes do not wrap."
  },
  {
   "property": "C12",
   "status": "proved",
   "theorems": [
    "C12_heap_tiling",
    "C12_heap_all_released"
   ],
   "note": "Units tile the memory of the base allocator exactly, no two free neighbours remain, everything is given back."
  },
  {
   "property": "C13",
   "status": "proved",
   "theorems": [
    "C13_pool_blocks",
    "C13_pool_progress"
   ],
   "note": "All histories, over an arbitrary well-behaved base allocator."
  },
  {
   "property": "C14",
   "status": "proved",
   "theorems": [
    "C14_frame_blocks",
    "C14_frame_progress",
    "C14_heap_base_has_gap",
    "C14_release_boundary_refuted"
   ],
   "note": "All histories in which the base allocator never returns the address just behind the frame buffer; the heap allocator, the only base the library uses, never does (C14_heap_base_has_gap). With a base that does, the block leaks (C14_release_boundary_refuted)."
  },
  {
   "property": "C15",
   "status": "proved",
   "theorems": [
    "C15_align_address"
   ],
   "note": "All addresses, alignment 16."
  },
  {
   "property": "C16",
   "status": "proved",
   "theorems": [
    "C16_create_fresh",
    "C16_live_valid",
    "C16_destroyed_invalid",
    "C16_identifier_reuse"
   ],
   "note": "Histories that destroy only live entities and stay below 2^24 indices. A destroyed identifier stays invalid for the following 255*1025 destructions; identifiers do recur later (8-bit generations)."
  },
  {
   "property": "C17",
   "status": "partial",
   "theorems": [
    "C17_components_answers",
    "C17_components_loops",
    "C17_joint_limit_refuted"
   ],
   "note": "Proved for every component class whose swapComponents copies all data; refuted for the hinge and slider joint classes, whose swapComponents saves bUpperLimit from mUpperLimit."
  },
  {
   "property": "C18",
   "status": "proved",
   "theorems": [
    "C18_tree_structure",
    "C18_tree_progress"
   ],
   "note": "All histories with at most 32768 live objects; arithmetic generic (exact rationals and float-like rounding are instances). Node array modelled with links, heights wrapped to 16 bits, union of children and data."
  },
  {
   "property": "C19",
   "status": "proved",
   "theorems": [
    "C19_fat_box"
   ],
   "note": "All histories, any non-negative inflation, for exact and for rounded arithmetic."
  },
  {
   "property": "C20",
   "status": "proved",
   "theorems": [
    "C20_query_exact",
    "C20_query_shapes_exact"
   ],
   "note": "All reachable trees and query boxes, for exact and for rounded arithmetic; the second theorem covers the query for an array of objects."
  },
  {
   "property": "C21",
   "status": "partial",
   "theorems": [
    "C21_raycast",
    "C21_raycast_each",
    "C21_all_hits",
    "C21_closest_hit",
    "C21_all_hits_exact",
    "C21_ray_in_face_refuted"
   ],
   "note": "Refuted for an axis-parallel ray running exactly in the plane of a box face (0 * infinity in the slab test). Proved for all other rays: every candidate is offered once, a closest-hit callback ends with a closest hit, 0 stops."
  },
  {
   "property": "C22",
   "status": "proved",
   "theorems": [
    "C22_pairs",
    "C22_toggle_frame"
   ],
   "note": "All histories of the pair storage: arrays, index maps and per-collider lists agree with a map from pair identifiers to pairs; enabling or disabling moves a pair without changing its data or any other pair."
  },
  {
   "property": "C23",
   "status": "partial",
   "theorems": [
    "C23_retest_enabled_partial",
    "C23_retest_disabled_refuted",
    "C23_calls_succeed",
    "C23_move_static_refuted",
    "C23_filter_bits_refuted"
   ],
   "note": "Refuted: the retest request of a disabled pair reads outside the enabled arrays, reachable by moving a static body under a sleeping one or by changing filter bits. Proved: for enabled pairs, and that every call succeeds in all histories in which static bodies with disabled pairs are not moved or made movable, filter bits of colliders with disabled pairs are left alone, and colliders waiting in a lost contact are not destroyed before the report."
  },
  {
   "property": "C24",
   "status": "proved",
   "theorems": [
    "C24_inverse_mass",
    "C24_inverse_inertia",
    "C24_not_accelerated",
    "C24_forces_ignored",
    "C24_static_at_rest"
   ],
   "note": "The impulses of the contact and joint solvers are arbitrary inputs of an update."
  },
  {
   "property": "C25",
   "status": "proved",
   "theorems": [
    "C25_islands_built",
    "C25_exactly_one_island",
    "C25_same_island_iff_chain",
    "C25_members",
    "C25_static_members"
   ],
   "note": "All graphs, all sleeping sets. Note that a joint to an inactive body puts that body into the island."
  },
  {
   "property": "C26",
   "status": "partial",
   "theorems": [
    "C26_only_resting_islands_partial",
    "C26_resting_islands_sleep",
    "C26_only_members_sleep",
    "C26_update_succeeds",
    "C26_zero_time_refuted",
    "C26_disabled_gap_refuted"
   ],
   "note": "Refuted: with a time before sleep of zero moving bodies are put to sleep; sleep times survive a period with sleeping disabled in which the body moves. Proved over all histories for positive thresholds: rest is measured over the updates with sleeping enabled of which the body is part."
  },
  {
   "property": "C27",
   "status": "partial",
   "theorems": [
    "C27_simulated_when_awake",
    "C27_tracked_live",
    "C27_static_to_dynamic_refuted",
    "C27_two_static_refuted"
   ],
   "note": "Refuted: setType from static to dynamic leaves disabled pairs disabled, and two static bodies get a simulated pair. Proved in all other histories: a pair with an awake non-static body is simulated; tracked pairs have live, active bodies."
  },
  {
   "property": "C28",
   "status": "partial",
   "theorems": [
    "C28_event_sequence_partial",
    "C28_exit_while_touching_refuted",
    "C28_stay_without_start_refuted"
   ],
   "note": "Refuted: a body put to sleep between a world query and the next update, then woken by a contact, gets an exit while it still touches, or a stay without a start. Proved for pairs that are not put to sleep between a query and the next update."
  },
  {
   "property": "C29",
   "status": "partial",
   "theorems": [
    "C29_one_joint",
    "C29_two_joints_refuted"
   ],
   "note": "Refuted: with two collision-disabling joints between two bodies, destroying one enables collisions. Proved when two bodies have at most one such joint."
  },
  {
   "property": "C30",
   "status": "partial",
   "theorems": [
    "C30_creation_partial",
    "C30_symmetric",
    "C27_two_static_refuted"
   ],
   "note": "Exact and symmetric characterisation of when a pair is created; the condition that the bodies are not both static or asleep is not tested by the code (refuted by two static bodies)."
  },
  {
   "property": "C31",
   "status": "proved",
   "theorems": [
    "C31_damping",
    "C31_speed"
   ],
   "note": ""
  },
  {
   "property": "C32",
   "status": "partial",
   "theorems": [
    "C32_accumulate",
    "C32_update",
    "C32_forces_act",
    "C32_accumulators_cleared",
    "C32_locked",
    "C32_other_bodies_partial",
    "C32_kinematic_refuted"
   ],
   "note": "Refuted for bodies that are not dynamic: damping slows kinematic bodies down. Everything about dynamic bodies is proved, other bodies keep their velocity when they are not damped."
  },
  {
   "property": "C33",
   "status": "proved",
   "theorems": [
    "C33_center_of_mass"
   ],
   "note": ""
  },
  {
   "property": "C34",
   "status": "proved",
   "theorems": [
    "C34_compose",
    "C34_group_laws",
    "C34_inverse",
    "C34_closed",
    "C34_isometry",
    "C34_rotation",
    "C34_matrix"
   ],
   "note": "Exact arithmetic, all transforms with unit orientation."
  },
  {
   "property": "C35",
   "status": "proved",
   "theorems": [
    "C35_inverse3",
    "C35_inverse2",
    "C35_solves"
   ],
   "note": "Exact arithmetic, all invertible matrices."
  },
  {
   "property": "C36",
   "status": "proved",
   "theorems": [
    "C36_optimal",
    "C36_short"
   ],
   "note": "Exact arithmetic. C36_short bounds the error below the threshold as well."
  },
  {
   "property": "C37",
   "status": "proved",
   "theorems": [
    "C37_optimal",
    "C37_near_optimal"
   ],
   "note": "Exact arithmetic, all segments longer than the threshold or single points, parallel ones included. C37_near_optimal bounds the error for all segments."
  },
  {
   "property": "C38",
   "status": "partial",
   "theorems": [
    "C38_safe",
    "C38_in_front_on_boundary",
    "C38_keeps_front",
    "C38_covers_front",
    "C38_empty_polygon_refuted",
    "C38_grazing_refuted"
   ],
   "note": "Refuted: an empty polygon is read out of bounds, and the front part of an edge crossing at a grazing angle (less than 0.0001 along the normal) is dropped. Otherwise exact: all kept vertices are in front and on the boundary, front vertices keep their order, nothing in front is lost."
  },
  {
   "property": "C39",
   "status": "partial",
   "theorems": [
    "C39_exact_partial",
    "C39_sound",
    "C39_one_plane",
    "C39_invalid_read_refuted",
    "C39_no_planes_refuted"
   ],
   "note": "Refuted: a segment leaving a plane at a grazing angle leaves one vertex and the next plane reads a second one. Without such planes the result is exactly the part in front."
  },
  {
   "property": "C40",
   "status": "proved",
   "theorems": [
    "C40_reconstruct",
    "C40_unique",
    "C40_inside"
   ],
   "note": "Exact arithmetic, all triangles with an area."
  },
  {
   "property": "C41",
   "status": "proved",
   "theorems": [
    "C41_sphere",
    "C41_box",
    "C41_capsule",
    "C41_capsule_local",
    "C41_triangle"
   ],
   "note": "Exact arithmetic. Spheres, boxes and triangles: the box is the smallest one."
  },
  {
   "property": "C42",
   "status": "proved",
   "theorems": [
    "C42_sphere",
    "C42_box",
    "C42_capsule"
   ],
   "note": "Exact arithmetic; for spheres and capsules the direction is zero or longer than the machine epsilon."
  },
  {
   "property": "C43",
   "status": "proved",
   "theorems": [
    "C43_exact",
    "C43_inside"
   ],
   "note": "Exact arithmetic; a ray that touches the sphere only at the maximum fraction itself is not reported."
  },
  {
   "property": "C44",
   "status": "proved",
   "theorems": [
    "C44_exact"
   ],
   "note": "Exact arithmetic; maximum fractions up to the largest number."
  },
  {
   "property": "C45",
   "status": "partial",
   "theorems": [
    "C45_exact_partial",
    "C45_short_ray_refuted",
    "C45_large_fraction_refuted"
   ],
   "note": "Refuted for short rays into the side of a capsule and for maximum fractions above one; exact for the other rays (C45_exact_partial)."
  },
  {
   "property": "C46",
   "status": "proved",
   "theorems": [
    "C46_sphere",
    "C46_box",
    "C46_capsule"
   ],
   "note": "Exact arithmetic, all dimensions and points."
  },
  {
   "property": "C47",
   "status": "partial",
   "theorems": [
    "C47_overlap",
    "C47_detection",
    "C47_reported",
    "C47_contact_partial",
    "C47_coincident_refuted"
   ],
   "note": "Detection is exact. Refuted for coincident centres: both contact points are on the same side; the contact is right when the squared distance of the centres exceeds the machine epsilon."
  },
  {
   "property": "C48",
   "status": "partial",
   "theorems": [
    "C48_detection_partial",
    "C48_reported",
    "C48_contact_partial",
    "C48_second_refuted"
   ],
   "note": "Refuted when the sphere is the second shape and its centre lies on the inner segment (normal not reversed); otherwise right when the centre is on the segment or clearly off it. Missing: inner segments shorter than sqrt(epsilon), centres at distance below sqrt(epsilon)."
  },
  {
   "property": "C49",
   "status": "proved",
   "theorems": [
    "C49_impulses_bounded"
   ],
   "note": "All manifolds, states and iteration counts from one on, over exact reals; the friction coefficient is stated as square root of the product of the squares of what the materials keep."
  },
  {
   "property": "C50",
   "status": "proved",
   "theorems": [
    "C50_momentum_conserved",
    "C50_immovable_and_remote_kept"
   ],
   "note": "For any set of free bodies that no contact links to a body outside it, for velocities and for split velocities."
  },
  {
   "property": "C51",
   "status": "partial",
   "theorems": [
    "C51_kept_impulses_applied_partial",
    "C51_twist_refuted"
   ],
   "note": "Refuted: warmStart applies the twist impulse twice (ContactSolverSystem.cpp:445-465). Proved: without stored twist the change is exactly the stored impulses, each once."
  },
  {
   "property": "C52",
   "status": "partial",
   "theorems": [
    "C52_four_points_partial",
    "C52_deepest_kept_refuted",
    "C52_depth_ignored_refuted"
   ],
   "note": "Refuted: reduceContactPoints never reads penetration depths, so the deepest point can be dropped. Proved: four different points of the manifold, chosen as documented; smaller manifolds only lose duplicates."
  },
  {
   "property": "C53",
   "status": "proved",
   "theorems": [
    "C53_duplicates_removed"
   ],
   "note": "Stronger: every removed point is close to a point that is kept in the end."
  },
  {
   "property": "C54",
   "status": "proved",
   "theorems": [
    "C54_four_deepest_manifolds"
   ],
   "note": "For penetration depths between 0 and the largest decimal, as the narrow phase delivers."
  },
  {
   "property": "C55",
   "status": "proved",
   "theorems": [
    "C55_half_edges",
    "C55_only_closed"
   ],
   "note": "For every nonempty closed face list with indices in range; conversely the computation only succeeds on such lists."
  },
  {
   "property": "C56",
   "status": "partial",
   "theorems": [
    "C56_query_partial",
    "C56_tall_refuted"
   ],
   "note": "Refuted for fields whose heights span 2^31 or more: the unused coordinate along the height is converted to int, which is undefined (C56_tall_refuted). For all others and positive scales: every cell that meets the box is answered, both triangles, each once, with unique identifiers and upward unit normals."
  },
  {
   "property": "C57",
   "status": "partial",
   "theorems": [
    "C57_mass",
    "C57_center",
    "C57_order",
    "C57_inertia_partial",
    "C57_inertia_refuted"
   ],
   "note": "Refuted for the tensor: only the diagonal is kept, so moments about axes that are not those of the body are wrong. The stored moments about the body axes are right."
  },
  {
   "property": "C58",
   "status": "partial",
   "theorems": [
    "C58_bulk_append_overruns_refuted",
    "C58_add_own_element_refuted"
   ],
   "note": "Refuted: the faithful model overruns the buffer when 2^24+1 elements are appended to an empty array, and dangles when a full array is given one of its own elements. Below these limits C01 holds."
  },
  {
   "property": "C59",
   "status": "partial",
   "theorems": [
    "C59_fifo_capacity_unbounded_refuted"
   ],
   "note": "Refuted: the buffer of a deque used as a FIFO of size one grows without bound."
  },
  {
   "property": "C60",
   "status": "partial",
   "theorems": [
    "C60_headers_aligned_partial",
    "C60_headers_aligned_refuted"
   ],
   "note": "Refuted: a request of 1 byte makes the allocator construct the header of the remaining free unit at a misaligned address. Proved when all sizes and base addresses are multiples of 8."
  },
  {
   "property": "C61",
   "status": "proved",
   "theorems": [
    "C61_component_arrays"
   ],
   "note": "For 16-aligned buffers (what the heap allocator returns, C15)."
  },
  {
   "property": "C62",
   "status": "partial",
   "theorems": [
    "C62_tree_balanced_refuted",
    "C62_height_partial"
   ],
   "note": "Refuted: seven insertions of growing boxes leave an inner node with subtrees of heights 2 and 0. Proved: the height is below the number of objects."
  },
  {
   "property": "C63",
   "status": "partial",
   "theorems": [
    "C63_broad_phase_complete",
    "C63_simulated_pairs_overlap",
    "C63_moved_boxes_covered",
    "C63_destroyed_joint_refuted",
    "C63_filter_bits_refuted"
   ],
   "note": "Refuted: destroying the joint that kept two resting bodies from colliding does not re-create their pair; changed filter bits are not applied to existing pairs. Completeness proved for histories that destroy such joints only with a body; simulated pairs overlap in all histories considered."
  },
  {
   "property": "C64",
   "status": "partial",
   "theorems": [
    "C64_inactive_untracked_partial",
    "C64_inactive_simulated_refuted",
    "C64_reactivated_asleep_refuted",
    "C64_inactive_not_moved_partial",
    "C64_revived_refuted"
   ],
   "note": "Refuted: setType on an inactive body enables its components again; a re-activated body stays asleep. Proved: colliders of inactive bodies are in no pair; updates do not move inactive bodies whose type is only changed while they are active."
  },
  {
   "property": "C65",
   "status": "partial",
   "theorems": [
    "C65_events_live",
    "C65_lost_contact_refuted"
   ],
   "note": "Refuted: createJoint between touching bodies records a lost contact, and a collider destroyed before the next update is then read. Proved for histories that do not destroy a collider in that window."
  },
  {
   "property": "C66",
   "status": "proved",
   "theorems": [
    "C25_contacts_grouped",
    "C25_contacts_once"
   ],
   "note": "All graphs; the number of manifolds per pair is arbitrary."
  },
  {
   "property": "C67",
   "status": "proved",
   "theorems": [
    "C25_members",
    "C25_members_awake",
    "C26_components_follow"
   ],
   "note": "All graphs and sleeping sets."
  },
  {
   "property": "C68",
   "status": "proved",
   "theorems": [
    "C68_matrix_of_quaternion",
    "C68_quaternion_of_matrix",
    "C68_round_trip",
    "C68_opengl"
   ],
   "note": "Exact arithmetic, all branches."
  },
  {
   "property": "C69",
   "status": "partial",
   "theorems": [
    "C69_unit_on_arc_partial",
    "C69_endpoints",
    "C69_near_unit",
    "C69_near_refuted"
   ],
   "note": "Refuted: between close orientations the linear shortcut gives quaternions shorter than one; C69_near_unit bounds the defect of the squared length by 1/200000. Away from the shortcut the result is a unit quaternion at constant angular speed."
  },
  {
   "property": "C70",
   "status": "proved",
   "theorems": [
    "C70_euler"
   ],
   "note": "Exact sines and cosines."
  },
  {
   "property": "C71",
   "status": "proved",
   "theorems": [
    "C71_unit",
    "C71_orthogonal"
   ],
   "note": "Exact arithmetic."
  },
  {
   "property": "C72",
   "status": "proved",
   "theorems": [
    "C72_angle_axis"
   ],
   "note": "Exact arithmetic."
  },
  {
   "property": "C73",
   "status": "proved",
   "theorems": [
    "C73_projection",
    "C73_line_distance"
   ],
   "note": "Exact arithmetic."
  },
  {
   "property": "C74",
   "status": "proved",
   "theorems": [
    "C74_clamp"
   ],
   "note": "Exact arithmetic."
  },
  {
   "property": "C75",
   "status": "partial",
   "theorems": [
    "C75_exact_partial",
    "C75_wrong_side",
    "C75_both_sides_refuted"
   ],
   "note": "Refuted when both sides are tested: rays across the prolongation of an edge. Exact for one-sided tests, and for both sides for all other rays."
  },
  {
   "property": "C76",
   "status": "partial",
   "theorems": [
    "C76_uniform_partial",
    "C76_scale_refuted"
   ],
   "note": "Refuted for scales that differ between the axes; proved for uniform scales."
  },
  {
   "property": "C77",
   "status": "partial",
   "theorems": [
    "C77_exact_partial",
    "C77_scale_refuted"
   ],
   "note": "Refuted for scales other than one; exact at scale one."
  },
  {
   "property": "C78",
   "status": "partial",
   "theorems": [
    "C78_exact_partial",
    "C78_scale_refuted"
   ],
   "note": "Refuted for scales other than one; exact at scale one."
  },
  {
   "property": "C79",
   "status": "proved",
   "theorems": [
    "C79_cast",
    "C79_sphere",
    "C79_inside"
   ],
   "note": "Generic over the shape; C79_sphere is the closed instance for spheres."
  },
  {
   "property": "C80",
   "status": "partial",
   "theorems": [
    "C80_detection_partial",
    "C80_reported",
    "C80_contact_partial",
    "C80_small_refuted",
    "C80_opposite_refuted"
   ],
   "note": "Refuted for small crossed capsules (taken for parallel, collision missed) and for collinear capsules in opposite directions (contact does not separate). Proved for segments that are exactly parallel or clearly crossed, and that are clearly apart or meet in the same direction."
  },
  {
   "property": "C81",
   "status": "partial",
   "theorems": [
    "C81_set_center_of_mass",
    "C81_mass_properties_partial",
    "C81_kinematic_refuted"
   ],
   "note": "Refuted for updateMassPropertiesFromColliders of a spinning kinematic body."
  },
  {
   "property": "C82",
   "status": "partial",
   "theorems": [
    "C82_velocities_partial",
    "C82_teleport_refuted"
   ],
   "note": "Refuted: a spinning body gains its angular velocity times the displacement. Kept if the body does not spin or its centre of mass stays."
  },
  {
   "property": "C83",
   "status": "proved",
   "theorems": [
    "C83_unit_orientation",
    "C83_motion"
   ],
   "note": "Gravity, forces and solver impulses are arbitrary; updates that correct positions (split impulses, joints) are covered by C83_unit_orientation only."
  },
  {
   "property": "C84",
   "status": "partial",
   "theorems": [
    "C84_static_velocity_partial",
    "C84_stale_velocity_refuted"
   ],
   "note": "Refuted: a body made static after an update keeps the velocity of that update for the solvers. Zero if every update happened while the body was static."
  },
  {
   "property": "C85",
   "status": "partial",
   "theorems": [
    "C85_orientation",
    "C85_position_partial",
    "C85_position_refuted"
   ],
   "note": "Refuted when the local centre of mass is not the origin: the position used is the one of the transform."
  },
  {
   "property": "C86",
   "status": "proved",
   "theorems": [
    "C86_colliders_follow"
   ],
   "note": ""
  },
  {
   "property": "C87",
   "status": "proved",
   "theorems": [
    "C87_bounce"
   ],
   "note": "One contact, exact reals."
  },
  {
   "property": "C88",
   "status": "partial",
   "theorems": [
    "C88_push_apart_partial",
    "C88_locked_axes_refuted"
   ],
   "note": "Refuted with a locked rotation axis: the effective mass ignores the locks and the projected response can be negative. Proved for bodies without locked rotation axes (any linear locks), one contact."
  },
  {
   "property": "C89",
   "status": "partial",
   "theorems": [
    "C89_no_bounce_partial",
    "C89_one_bounce_partial",
    "C89_energy_refuted"
   ],
   "note": "Refuted: two iterations over a chain of three balls with bounciness 1 gain energy. Proved: any number of contacts without bounce, and one contact with any bounciness up to 1."
  },
  {
   "property": "C90",
   "status": "partial",
   "theorems": [
    "C90_angular_momentum_partial",
    "C90_friction_refuted"
   ],
   "note": "Refuted: friction is applied at the two different points of a penetrating contact. Proved without friction when the contact points lie on a line along the normal."
  },
  {
   "property": "C91",
   "status": "partial",
   "theorems": [
    "C91_friction_partial",
    "C91_friction_cone_refuted"
   ],
   "note": "Refuted: the two friction directions are bounded separately, so the impulse can exceed the bound by a factor sqrt 2. Proved: orthogonality and the bound with the factor sqrt 2."
  },
  {
   "property": "C92",
   "status": "proved",
   "theorems": [
    "C92_depth_gives_no_speed"
   ],
   "note": "Two runs that differ in depths and split velocities only."
  },
  {
   "property": "C93",
   "status": "proved",
   "theorems": [
    "C93_rest"
   ],
   "note": "Any number of manifolds and iterations."
  },
  {
   "property": "C94",
   "status": "partial",
   "theorems": [
    "C94_stored_is_applied_partial",
    "C94_twist_refuted"
   ],
   "note": "Refuted for manifolds with a stored twist impulse, for every number of iterations (the warm start applies it twice, C51). Proved when no twist is stored before the update."
  },
  {
   "property": "C95",
   "status": "proved",
   "theorems": [
    "C95_reported_contacts"
   ],
   "note": "Exact reals; array lengths do not wrap."
  },
  {
   "property": "C96",
   "status": "proved",
   "theorems": [
    "C96_impulses_inherited"
   ],
   "note": "Exact reals, every reachable frame."
  },
  {
   "property": "C97",
   "status": "partial",
   "theorems": [
    "C97_passed_on_once_partial",
    "C97_impulse_passed_on_twice_refuted"
   ],
   "note": "Refuted: two contact points near one previous point both start with its impulse. Proved for contact points farther apart than twice the persistence distance."
  },
  {
   "property": "C98",
   "status": "partial",
   "theorems": [
    "C98_listener_informed_partial",
    "C98_removed_silently_refuted",
    "C98_started_twice_refuted",
    "C98_trigger_switched_refuted",
    "C98_dropped_and_found_refuted"
   ],
   "note": "Refuted in four ways: deactivation or destruction reports no exit, reactivation a second start, a changed trigger flag sends the exit to the other callback, a pair dropped and found again between two updates gets start before exit. Proved for histories without these and without sleep after a query."
  },
  {
   "property": "C99",
   "status": "partial",
   "theorems": [
    "C99_accepted_partial",
    "C99_good_data_partial",
    "C99_closed_data_partial",
    "C99_open_surface_refuted",
    "C99_no_face_refuted",
    "C99_short_face_refuted"
   ],
   "note": "Refuted: an open surface, an empty face list and a face with two vertices lead to undefined behaviour (missing map key, access outside an array). Proved: closed data with faces of at least three vertices is always answered, with a mesh exactly if it is good; a mesh is returned for good data only."
  },
  {
   "property": "C100",
   "status": "proved",
   "theorems": [
    "C100_volume",
    "C100_moved",
    "C100_scaled"
   ],
   "note": "Exact arithmetic; volume enclosed = signed sum over tetrahedra with any apex."
  },
  {
   "property": "C101",
   "status": "proved",
   "theorems": [
    "C101_normals"
   ],
   "note": "Exact arithmetic."
  },
  {
   "property": "C102",
   "status": "partial",
   "theorems": [
    "C102_bounds_partial",
    "C102_tetrahedron_partial",
    "C102_center_of_mass_partial",
    "C102_centroid_refuted",
    "C102_center_of_mass_refuted"
   ],
   "note": "Refuted: the centroid is the mean of the vertices (square pyramid), and a body's centre of mass uses the position of the collider instead of the centroid of the mesh (cube away from the mesh origin). Proved: bounds exact, centroid inside them and right for tetrahedra, body centre right for meshes centred at their origin."
  },
  {
   "property": "C103",
   "status": "partial",
   "theorems": [
    "C103_first_hit_partial",
    "C103_each_triangle_partial",
    "C103_far_border_stuck",
    "C103_far_border_refuted"
   ],
   "note": "Refuted: a ray parallel to the first axis exactly along the far border never ends (0/0 in the walk over the grid). Otherwise the walk ends within columns + rows steps and the first point is found, if no triangle is nearly parallel to the ray or seen from the wrong side; C103_each_triangle_partial drops that condition for the other triangles."
  },
  {
   "property": "C104",
   "status": "partial",
   "theorems": [
    "C104_uniform_partial",
    "C104_normal_refuted"
   ],
   "note": "Refuted for scales that differ between axes: the normal is that of the surface before scaling. Holds for uniform scales."
  },
  {
   "property": "C105",
   "status": "partial",
   "theorems": [
    "C105_field_partial",
    "C105_null",
    "C105_bounds",
    "C105_size_refuted"
   ],
   "note": "Refuted when the number of heights exceeds 2^31 - 1: the product overflows int. Otherwise as stated."
  },
  {
   "property": "C106",
   "status": "partial",
   "theorems": [
    "C106_momentum",
    "C106_angular_partial",
    "C106_angular_refuted"
   ],
   "note": "Momentum: proved. Angular momentum: refuted for the motor of a slider, which pushes both bodies at their centres. Holds for other joints whose anchor points coincide, and for sliders without motor."
  },
  {
   "property": "C107",
   "status": "proved",
   "theorems": [
    "C107_untouched",
    "C107_locked",
    "C107_split"
   ],
   "note": ""
  },
  {
   "property": "C108",
   "status": "partial",
   "theorems": [
    "C108_anchors_partial",
    "C108_fixed_partial",
    "C108_slider_partial",
    "C108_heavy_refuted"
   ],
   "note": "Refuted for heavy bodies: a determinant up to 2^-23 counts as singular and the joint is ignored. Holds if the sum of inverse masses (its third power, second for sliders) or the determinant of the summed inverse inertias is above that."
  },
  {
   "property": "C109",
   "status": "proved",
   "theorems": [
    "C109_rest"
   ],
   "note": "For joints without impulses from before (new joints)."
  },
  {
   "property": "C110",
   "status": "partial",
   "theorems": [
    "C110_energy_partial",
    "C110_beams_refuted",
    "C110_limit_refuted"
   ],
   "note": "Refuted twice: fixed and slider joints use the matrix in place of its inverse if its determinant is small; the limit of a slider uses a lever arm from the update before, zero at first. Holds otherwise."
  },
  {
   "property": "C111",
   "status": "proved",
   "theorems": [
    "C111_limits",
    "C111_motor"
   ],
   "note": "Reported efforts, with the impulses of switched off motors erased as the API does."
  },
  {
   "property": "C112",
   "status": "partial",
   "theorems": [
    "C112_slider_partial",
    "C112_hinge_refuted"
   ],
   "note": "Refuted for hinges: with enough torque n iterations drive bodies at rest to 1 - 2^n times the speed. Proved for sliders."
  },
  {
   "property": "C113",
   "status": "partial",
   "theorems": [
    "C113_normal",
    "C113_near_limits",
    "C113_angle_partial",
    "C113_same_orientation_partial",
    "C113_angle_refuted"
   ],
   "note": "Refuted for bodies created with different orientations when the assembly is turned. Holds if the turn of the assembly commutes with the relative orientation at creation, in particular for equal orientations at creation and for a first body that is not turned."
  },
  {
   "property": "C114",
   "status": "partial",
   "theorems": [
    "C114_reported_partial",
    "C114_cone_refuted"
   ],
   "note": "Refuted for the cone limit of a ball-and-socket joint, whose torque is not reported. Holds for all other joints except sliders with a motor, whose force acts elsewhere."
  },
  {
   "property": "C115",
   "status": "proved",
   "theorems": [
    "C115_untouched",
    "C115_immovable",
    "C115_locked",
    "C115_unit"
   ],
   "note": "For every list of joints of the four kinds and every number of iterations."
  },
  {
   "property": "C116",
   "status": "proved",
   "theorems": [
    "C116_center"
   ],
   "note": "For every group of bodies of finite mass without locked axes whose corrected joints are inside or outside the group."
  },
  {
   "property": "C117",
   "status": "proved",
   "theorems": [
    "C117_closes"
   ],
   "note": "The constant is (a1^3 k1^2 + a2^3 k2^2) / (2 (m1 + m2)^2) with arm lengths a, inverse inertias at most k and inverse masses m. As in C108 the determinant must exceed MACHINE_EPSILON: (m1+m2)^3 > eps is assumed."
  },
  {
   "property": "C118",
   "status": "partial",
   "theorems": [
    "C118_rest_partial",
    "C118_spinning_refuted"
   ],
   "note": "Refuted: orientations are not normalised after integration, so that the first iteration sees arms of wrong length for turning bodies. Holds for orientations of unit length."
  },
  {
   "property": "C119",
   "status": "partial",
   "theorems": [
    "C119_independent_partial",
    "C119_slider_refuted"
   ],
   "note": "Refuted: the loop over sliders ends at the first slider corrected through the velocities. Holds if there is none."
  },
  {
   "property": "C120",
   "status": "partial",
   "theorems": [
    "C120_slider_partial",
    "C120_hinge_partial",
    "C120_cone_refuted"
   ],
   "note": "Refuted for the cone limit of ball-and-socket joints, which is overshot. Proved for sliders between bodies that do not turn: the extension is clamped to the limits by the first iteration. Missing: bodies that turn, where an iteration only approximates the limit, and hinges. For a hinge with spherical inertia on an immovable body the correction turns towards the limit and not past it."
  },
  {
   "property": "C121",
   "status": "partial",
   "theorems": [
    "C121_fixed_partial",
    "C121_sign_refuted"
   ],
   "note": "Refuted for the sign of the quaternion: the error is twice the vector part of the relative quaternion, and with the other sign the correction drives the bodies away from the wanted orientation. Proved, per iteration and among any other joints of other bodies, when the scalar part is large enough against the turn caused by closing the gap."
  },
  {
   "property": "C122",
   "status": "partial",
   "theorems": [
    "C122_hinge_partial"
   ],
   "note": "Proved per iteration and among any other joints of other bodies, for bodies free to turn or immovable, with the inverse moments bounded from below; the coupling with the gap is bounded but not shown to converge in general. Locked axes are missing."
  },
  {
   "property": "C123",
   "status": "proved",
   "theorems": [
    "C123_answers",
    "C123_definite"
   ],
   "note": "For shapes that are hulls of finitely many vertices (spheres, boxes, capsules, convex meshes) plus a margin, over exact arithmetic, with distances small against DECIMAL_LARGEST."
  },
  {
   "property": "C124",
   "status": "proved",
   "theorems": [
    "C124_overlap",
    "C124_reported",
    "C124_contact"
   ],
   "note": "For shapes that are hulls of finitely many vertices plus a margin, over exact arithmetic."
  },
  {
   "property": "C125",
   "status": "partial",
   "theorems": [
    "C125_axis",
    "C125_deep",
    "C125_found_partial",
    "C125_separates_partial",
    "C125_small_refuted"
   ],
   "note": "Refuted for small shapes: the absolute tolerance of the test for affine dependence ends the search too early, and a 2 cm overlap of shapes of about 10 cm is reported as separated. Proved with an error of 1 cm (or a small part of the distances) if no three or four differences of vertices span a small triangle or tetrahedron; answers that keep an axis are exact without that condition."
  },
  {
   "property": "C126",
   "status": "partial",
   "theorems": [
    "C126_answers",
    "C126_hit",
    "C126_found_partial",
    "C126_separates_partial",
    "C126_deep",
    "C126_small_refuted"
   ],
   "note": "Refuted for small shapes as C125. Proved: termination; reported collisions are real; overlaps beyond the error are found if no differences of vertices span small triangles or tetrahedra; deep contacts are exact and minimal."
  },
  {
   "property": "C127",
   "status": "partial",
   "theorems": [
    "C127_triangles",
    "C127_vertices_partial",
    "C127_first_vertex_refuted",
    "C127_no_vertices_refuted",
    "C127_degenerate_refuted"
   ],
   "note": "Proved: termination, messages, acceptance, the triangles and their points. The vertices and user normals are exactly those used when the first vertex is used. Refuted: an unused first vertex stays, at the origin; no vertices: out of bounds read; all vertices at the origin: a triangle without area is accepted. At most 32768 triangles; exact arithmetic."
  },
  {
   "property": "C128",
   "status": "partial",
   "theorems": [
    "C128_weighted_partial",
    "C128_obtuse_refuted",
    "C128_sheet_refuted"
   ],
   "note": "Refuted: obtuse corners count as right angles; the normals of a two-sided sheet are zero. Proved for vertices without obtuse corners and triangles of double area at least MACHINE_EPSILON."
  },
  {
   "property": "C129",
   "status": "partial",
   "theorems": [
    "C129_query_partial",
    "C129_bounds_partial",
    "C129_set_scale",
    "C129_mirror_refuted"
   ],
   "note": "Refuted for negative scales: the query misses triangles inside the box and the bounds are empty. Proved for positive scales."
  },
  {
   "property": "C130",
   "status": "partial",
   "theorems": [
    "C130_nearest_partial",
    "C130_default_side",
    "C130_edge_refuted"
   ],
   "note": "Refuted: a ray straight down on the shared edge of two floor triangles hits nothing. Proved for rays that run along no coordinate plane through a vertex and for which the triangle test is exact (C75)."
  },
  {
   "property": "C131",
   "status": "partial",
   "theorems": [
    "C131_runs",
    "C131_boxes_partial",
    "C131_inactive",
    "C131_step_settles",
    "C131_settled",
    "C131_resize_refuted",
    "C131_asleep_refuted"
   ],
   "note": "Refuted: after a shape is resized the broad phase keeps the old box until the next step, and for ever if the body is asleep. Proved for every history for all other calls. Shapes: spheres, boxes, capsules."
  },
  {
   "property": "C132",
   "status": "partial",
   "theorems": [
    "C132_talk_partial",
    "C132_all_partial",
    "C132_closest_partial",
    "C132_sphere_answers",
    "C132_box_answers",
    "C132_capsule_answers_partial",
    "C132_new_body",
    "C132_category",
    "C132_query_flag",
    "C132_one_refuted"
   ],
   "note": "Refuted: an answer of 1 clips a ray whose maximal fraction exceeds 1. Proved for every reachable world and callback, for colliders whose shape was not resized since the last step, whose own ray cast is right (shown for spheres, boxes and, as in C45, capsules seen from outside) and whose box in the broad phase has no face in a plane with the ray (C21)."
  },
  {
   "property": "C133",
   "status": "partial",
   "theorems": [
    "C133_fraction_partial",
    "C133_point_partial",
    "C133_point_refuted"
   ],
   "note": "Refuted for point and normal: the transform of every collider tested after the nearest one is applied to them, even if it is missed. Proved: the answer and the fraction; point and normal if the nearest collider is the last one."
  },
  {
   "property": "C134",
   "status": "partial",
   "theorems": [
    "C134_runs",
    "C134_sound",
    "C134_complete_partial",
    "C134_agree_partial",
    "C134_contacts",
    "C134_asleep_refuted",
    "C134_flag_refuted"
   ],
   "note": "Refuted: the collisions of two sleeping (or static) bodies are not found by any query, and the queries about bodies ignore setIsWorldQueryCollider(false). Proved for every history: the queries succeed, what is reported is there, once; complete if one of the bodies is awake and not static (histories where joints that disable collisions are destroyed only with a body); the queries agree if all colliders may be queried. The narrow phase is a symmetric test of two colliders."
  },
  {
   "property": "C135",
   "status": "partial",
   "theorems": [
    "C135_overlap_partial",
    "C135_collision_partial",
    "C135_filter_refuted"
   ],
   "note": "Refuted: filters changed between a query and the update have no effect on pairs the query has found. Proved: a query of overlaps immediately before an update changes nothing that follows; after a query of contacts the collision detection of the update ends with the same pairs and flags and everything else the same."
  },
  {
   "property": "C136",
   "status": "partial",
   "theorems": [
    "C136_total",
    "C136_apart_partial",
    "C136_face_separates",
    "C136_missed_refuted"
   ],
   "note": "Refuted: two boxes that share a ball are reported apart, when the part of the second in the first is beside the face chosen within the tolerance. Proved: the test ends; a pair reported apart is apart or is of this kind (no corner of the opposite face is behind the chosen face and between its sides); pairs separated by a face are reported apart. Two triangles are excluded."
  },
  {
   "property": "C137",
   "status": "proved",
   "theorems": [
    "C137_contacts",
    "C137_least_depth",
    "C137_flag"
   ],
   "note": "Exact arithmetic. If one shape is a triangle, the contacts before they are smoothed."
  },
  {
   "property": "C138",
   "status": "partial",
   "theorems": [
    "C138_same_answers",
    "C138_apart_partial",
    "C138_stale_refuted"
   ],
   "note": "Refuted for the simulation: a box that has passed through a thin plate is reported as colliding with the far face, deeper than both together are high. Proved for the queries (no clipping with the last axis): all answers and contacts are those of a new pair; in the simulation this holds for pairs reported apart."
  },
  {
   "property": "C139",
   "status": "proved",
   "theorems": [
    "C139_triangle",
    "C139_contact",
    "C139_normal",
    "C139_moved",
    "C139_test",
    "C139_edge"
   ],
   "note": "Exact arithmetic; border means a barycentric coordinate of at most MACHINE_EPSILON, interpolated normals shorter than its square root are replaced by the normal of the triangle."
  },
  {
   "property": "C140",
   "status": "partial",
   "theorems": [
    "C139_moved",
    "C140_jump_refuted",
    "C140_surface_refuted"
   ],
   "note": "Refuted: the normals on the border of a triangle and just inside differ by a fixed angle; the new point on the other shape can be outside of it by 3/5 of the depth. Proved: it moves by at most sqrt 2 times the depth."
  },
  {
   "property": "C141",
   "status": "partial",
   "theorems": [
    "C141_total_partial",
    "C141_apart_partial",
    "C141_face_separates",
    "C141_missed_refuted",
    "C141_read_refuted"
   ],
   "note": "Refuted: with contacts asked for, a capsule whose deep end is beside the face of least depth is reported apart; a capsule almost parallel to a side of that face makes the clipping read beyond the end of an array. Proved: termination, and everything else if no contacts are asked for. Exact arithmetic, polyhedra other than triangles."
  },
  {
   "property": "C142",
   "status": "proved",
   "theorems": [
    "C142_contacts",
    "C142_separates",
    "C142_edges"
   ],
   "note": "Edges: those whose two faces look to different sides along the axis and for which the product of the lengths and the sine of the angle is at least 0.0032. Exact arithmetic, polyhedra other than triangles, shapes closer than DECIMAL_LARGEST; the points of an edge contact are closest up to 2 sqrt MACHINE_EPSILON."
  },
  {
   "property": "C143",
   "status": "partial",
   "theorems": [
    "C143_total_partial",
    "C143_hit",
    "C143_found_partial",
    "C143_separates_partial",
    "C141_missed_refuted",
    "C141_read_refuted"
   ],
   "note": "Overlaps are only found, and ended by the contact, if the vertices span no tiny triangle or tetrahedron; with contacts asked for, the failures of C141 remain (deep end beside the face, reading beyond an array). Exact arithmetic, polyhedra other than triangles."
  },
  {
   "property": "C144",
   "status": "proved",
   "theorems": [
    "C144_contacts"
   ],
   "note": "Exact arithmetic, polyhedra other than triangles, shapes closer than DECIMAL_LARGEST."
  },
  {
   "property": "C145",
   "status": "partial",
   "theorems": [
    "C145_in_order_partial",
    "C145_total_partial",
    "C145_destroy_joint_partial",
    "C145_destroy_body_partial",
    "C145_other_joint_refuted",
    "C145_joint_left_refuted"
   ],
   "note": "Refuted: destroyRigidBody loops over a reference to the joints in the slot of the body; waking the body moves its component, and the loop goes on with the joints of another body (an unrelated joint is destroyed, or a joint of the body is left and used later). Proved for bodies that are awake and not static, and for all bodies while none sleeps."
  },
  {
   "property": "C146",
   "status": "partial",
   "theorems": [
    "C146_destroy_world_partial",
    "C146_sleeping_refuted"
   ],
   "note": "Refuted for worlds with sleeping bodies (undefined behaviour in the destructor, from C145). Proved for worlds without sleeping bodies, although the loop over the joints skips some of them."
  },
  {
   "property": "C147",
   "status": "proved",
   "theorems": [
    "C147_agree",
    "C147_total",
    "C147_remove",
    "C147_destroy_body",
    "C147_destroy_world",
    "C147_resize",
    "C147_release"
   ],
   "note": "For worlds without joints (joints and sleeping bodies: C145, C146)."
  },
  {
   "property": "C148",
   "status": "proved",
   "theorems": [
    "C148_one_role",
    "C148_set_role",
    "C148_contact"
   ],
   "note": "updateHasSimulationCollider never clears the flag of a body; C148_contact shows that this makes no difference to the contacts that are solved."
  },
  {
   "property": "C149",
   "status": "partial",
   "theorems": [
    "C149_lifo_partial",
    "C149_push_top_refuted"
   ],
   "note": "Refuted for push(top()) on a full stack, which reads the released array. Proved for all histories in which push(top()) is called only while size() < capacity()."
  },
  {
   "property": "C150",
   "status": "proved",
   "theorems": [
    "C150_list",
    "C150_twins",
    "C150_release",
    "C150_closed"
   ],
   "note": "Half-edges only (faces and vertices: C151, links around a face: C152); addFace is modelled one half-edge at a time. Half-edges have two different ends; adding one twice and removing one twice are undefined. Released addresses are not reused in the model."
  },
  {
   "property": "C151",
   "status": "proved",
   "theorems": [
    "C151_list",
    "C151_release"
   ],
   "note": "The lists and counters only; contents of faces and vertices are not modelled. Faces and vertices are separate lists with their own theorem instance. Removing one that is not there is undefined. Released addresses are not reused in the model."
  },
  {
   "property": "C152",
   "status": "proved",
   "theorems": [
    "C152_rings"
   ],
   "note": "Links around faces made by addFace and removeFace; the merging of faces in QuickHull.cpp, which changes these links itself, is not modelled. Faces with less than three vertices and the removal of a face that is not there are undefined. Released addresses are not reused in the model."
  }
 ]
}