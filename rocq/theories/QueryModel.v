(** The ray casts of a physics world and of a body, with what they read: shapes, bodies, colliders and the broad-phase tree
    (src/engine/PhysicsWorld.cpp, src/body/Body.cpp, src/body/RigidBody.cpp, src/collision/Collider.cpp,
    src/collision/RaycastInfo.cpp, src/systems/BroadPhaseSystem.cpp), in exact arithmetic, on top of the models of the tree
    (TreeModel.v), of the test of a ray against a box (RayModel.v) and of the shapes (ShapeModel.v).  [eps] is
    MACHINE_EPSILON, [big] is DECIMAL_LARGEST, [pct] is DYNAMIC_TREE_FAT_AABB_INFLATE_PERCENTAGE.
    Simplified: the shapes are spheres, boxes and capsules; entities, component arrays and pointers are names that are never
    given twice; overlapping pairs, contacts, masses and the log are left out; the movement of the bodies in a step of the
    simulation is given from outside. *)
From Coq Require Import List ZArith Bool.
From Verif Require Import Base Decimal TreeModel RayModel VecModel ShapeModel TriMeshModel.
Import ListNotations.
Local Open Scope R_scope.

(** SphereShape.h, BoxShape.h, CapsuleShape.h: the sizes; [hh] is half of the height of a capsule. *)
Inductive wshape : Type := WSphere (r : R) | WBox (h : vec3) | WCapsule (hh r : R).
(** SphereShape.cpp:49-58, CollisionShape.cpp:54-96 computeTransformedAABB. *)
Definition wshape_box (s : wshape) (t : transform) : box3 :=
  match s with
  | WSphere r => sphere_world_bounds r t
  | WBox h => transformed_bounds (box_bounds h) t
  | WCapsule hh r => transformed_bounds (capsule_bounds hh r) t
  end.
(** CollisionShape::raycast. *)
Definition wshape_cast (eps big : R) (s : wshape) (y : ray) : option hit :=
  match s with
  | WSphere r => sphere_cast eps r y
  | WBox h => box_cast eps big h y
  | WCapsule hh r => capsule_cast eps hh r y
  end.

(** BodyComponents.h, TransformComponents.h: the parts of a body that are read here. *)
Record wbody : Type := WBody { wb_pose : transform; wb_active : bool; wb_asleep : bool; wb_colliders : list nat }.
(** ColliderComponents.h: the parts of a collider that are read here. *)
Record wcollider : Type := WCollider
  { wc_body : nat; wc_shape : nat; wc_local : transform; wc_world : transform; wc_bits : Z; wc_query : bool; wc_node : Z; wc_resized : bool }.
Record qworld : Type := QWorld
  { qw_shapes : nat -> option wshape; qw_bodies : nat -> option wbody; qw_colliders : nat -> option wcollider; qw_next : nat; qw_tree : dtree R }.
Definition empty_world : qworld := QWorld (fun _ => None) (fun _ => None) (fun _ => None) 0 (init_tree real_ops).

Definition with_tree (t : dtree R) (w : qworld) : qworld := QWorld (qw_shapes w) (qw_bodies w) (qw_colliders w) (qw_next w) t.
Definition with_body (b : nat) (x : option wbody) (w : qworld) : qworld :=
  QWorld (qw_shapes w) (nupd (qw_bodies w) b x) (qw_colliders w) (qw_next w) (qw_tree w).
Definition with_collider (c : nat) (k : option wcollider) (w : qworld) : qworld :=
  QWorld (qw_shapes w) (qw_bodies w) (nupd (qw_colliders w) c k) (qw_next w) (qw_tree w).
Definition with_colliders (cs : list nat) (x : wbody) : wbody := WBody (wb_pose x) (wb_active x) (wb_asleep x) cs.
Definition with_pose (t : transform) (x : wbody) : wbody := WBody t (wb_active x) (wb_asleep x) (wb_colliders x).
Definition with_active (v : bool) (x : wbody) : wbody := WBody (wb_pose x) v (wb_asleep x) (wb_colliders x).
Definition with_asleep (v : bool) (x : wbody) : wbody := WBody (wb_pose x) (wb_active x) v (wb_colliders x).
Definition with_node (n : Z) (k : wcollider) : wcollider :=
  WCollider (wc_body k) (wc_shape k) (wc_local k) (wc_world k) (wc_bits k) (wc_query k) n (wc_resized k).
Definition with_world (t : transform) (k : wcollider) : wcollider :=
  WCollider (wc_body k) (wc_shape k) (wc_local k) t (wc_bits k) (wc_query k) (wc_node k) (wc_resized k).
Definition with_local (t : transform) (k : wcollider) : wcollider :=
  WCollider (wc_body k) (wc_shape k) t (wc_world k) (wc_bits k) (wc_query k) (wc_node k) (wc_resized k).
Definition with_bits (v : Z) (k : wcollider) : wcollider :=
  WCollider (wc_body k) (wc_shape k) (wc_local k) (wc_world k) v (wc_query k) (wc_node k) (wc_resized k).
Definition with_query (v : bool) (k : wcollider) : wcollider :=
  WCollider (wc_body k) (wc_shape k) (wc_local k) (wc_world k) (wc_bits k) v (wc_node k) (wc_resized k).
Definition with_resized (v : bool) (k : wcollider) : wcollider :=
  WCollider (wc_body k) (wc_shape k) (wc_local k) (wc_world k) (wc_bits k) (wc_query k) (wc_node k) v.

(** The product of the transform of the body and of the local transform (Body.cpp:112, 266, 233; BroadPhaseSystem.cpp:172). *)
Definition place_of (w : qworld) (k : wcollider) : res transform :=
  let* x := rd (qw_bodies w (wc_body k)) in Ok (tr_mul (wb_pose x) (wc_local k)).
(** computeTransformedAABB at this place (the same lines). *)
Definition box_of (w : qworld) (k : wcollider) : res box3 :=
  let* t := place_of w k in
  let* s := rd (qw_shapes w (wc_shape k)) in
  Ok (wshape_box s t).
(** BroadPhaseSystem.cpp:80-93 addCollider. *)
Definition into_tree (pct : R) (c : nat) (w : qworld) : res qworld :=
  let* k := rd (qw_colliders w c) in
  let* b := box_of w k in
  let* (t, id) := add_object real_ops pct (tree_box b) (Z.of_nat c) (qw_tree w) in
  Ok (with_collider c (Some (with_node id k)) (with_tree t w)).
(** BroadPhaseSystem.cpp:96-110 removeCollider, with the test of its callers (Body.cpp:176, 280). *)
Definition out_of_tree (c : nat) (w : qworld) : res qworld :=
  let* k := rd (qw_colliders w c) in
  if Z.eqb (wc_node k) (-1) then Ok w
  else
    let* t := remove_object real_ops (wc_node k) (qw_tree w) in
    Ok (with_collider c (Some (with_node (-1) k)) (with_tree t w)).
(** BroadPhaseSystem.cpp:155-186 updateCollidersComponents for one collider, with updateColliderInternal (135-151). *)
Definition refresh (pct : R) (c : nat) (w : qworld) : res qworld :=
  let* k := rd (qw_colliders w c) in
  if Z.eqb (wc_node k) (-1) then Ok w
  else
    let* b := box_of w k in
    let* (t, _) := update_object real_ops pct (wc_node k) (tree_box b) (wc_resized k) (qw_tree w) in
    Ok (with_collider c (Some (with_resized false k)) (with_tree t w)).
Fixpoint for_each (f : nat -> qworld -> res qworld) (cs : list nat) (w : qworld) : res qworld :=
  match cs with
  | [] => Ok w
  | c :: cs => let* w := f c w in for_each f cs w
  end.

(** PhysicsCommon.cpp createSphereShape, createBoxShape, createCapsuleShape. *)
Definition create_shape (s : wshape) (w : qworld) : qworld :=
  QWorld (nupd (qw_shapes w) (qw_next w) (Some s)) (qw_bodies w) (qw_colliders w) (S (qw_next w)) (qw_tree w).
(** PhysicsWorld.cpp:397-445 createRigidBody. *)
Definition create_body (t : transform) (w : qworld) : qworld :=
  QWorld (qw_shapes w) (nupd (qw_bodies w) (qw_next w) (Some (WBody t true false []))) (qw_colliders w) (S (qw_next w)) (qw_tree w).
(** RigidBody.cpp:661-722 addCollider; ColliderComponents.cpp:138-165: the category is 1, queries of the world are enabled. *)
Definition add_collider (pct : R) (b s : nat) (local : transform) (w : qworld) : res qworld :=
  let* x := rd (qw_bodies w b) in
  let* _ := rd (qw_shapes w s) in
  let c := qw_next w in
  let w := QWorld (qw_shapes w) (nupd (qw_bodies w) b (Some (with_colliders (wb_colliders x ++ [c]) x)))
             (nupd (qw_colliders w) c (Some (WCollider b s local (tr_mul (wb_pose x) local) 1 true (-1) false))) (S c) (qw_tree w) in
  if wb_active x then into_tree pct c w else Ok w.
(** Body.cpp:170-201 removeCollider. *)
Definition remove_collider (c : nat) (w : qworld) : res qworld :=
  let* w := out_of_tree c w in
  let* k := rd (qw_colliders w c) in
  let* x := rd (qw_bodies w (wc_body k)) in
  let w := with_body (wc_body k) (Some (with_colliders (filter (fun d => negb (Nat.eqb d c)) (wb_colliders x)) x)) w in
  Ok (with_collider c None w).
(** PhysicsWorld.cpp:448-487 destroyRigidBody, with Body.cpp:204-213 removeAllColliders. *)
Definition destroy_body (b : nat) (w : qworld) : res qworld :=
  let* x := rd (qw_bodies w b) in
  let* w := for_each remove_collider (wb_colliders x) w in
  Ok (with_body b None w).
(** RigidBody.cpp:1006-1053 setIsSleeping: bodies that are not active stay as they are.  Simplified: no body is static. *)
Definition set_sleeping (b : nat) (v : bool) (w : qworld) : res qworld :=
  let* x := rd (qw_bodies w b) in
  Ok (if wb_active x then with_body b (Some (with_asleep v x)) w else w).
(** Body.cpp:232-239: one collider of updateBroadPhaseState. *)
Definition move_collider (pct : R) (c : nat) (w : qworld) : res qworld :=
  let* k := rd (qw_colliders w c) in
  let* t := place_of w k in
  refresh pct c (with_collider c (Some (with_world t k)) w).
(** RigidBody.cpp:837-862 and Body.cpp:397-407 setTransform, with Body.cpp:226-241 updateBroadPhaseState. *)
Definition set_transform (pct : R) (b : nat) (t : transform) (w : qworld) : res qworld :=
  let* w := set_sleeping b false w in
  let* x := rd (qw_bodies w b) in
  for_each (move_collider pct) (wb_colliders x) (with_body b (Some (with_pose t x)) w).
(** Collider.cpp:104-124 setLocalToBodyTransform. *)
Definition set_local (pct : R) (c : nat) (t : transform) (w : qworld) : res qworld :=
  let* k := rd (qw_colliders w c) in
  let* x := rd (qw_bodies w (wc_body k)) in
  let w := with_collider c (Some (with_world (tr_mul (wb_pose x) t) (with_local t k))) w in
  let* w := set_sleeping (wc_body k) false w in
  refresh pct c w.
(** RigidBody.cpp:1185-1193 and Body.cpp:247-291 setIsActive. *)
Definition set_active (pct : R) (b : nat) (v : bool) (w : qworld) : res qworld :=
  let* x := rd (qw_bodies w b) in
  if Bool.eqb (wb_active x) v then Ok w
  else
    let* w := set_sleeping b (negb v) w in
    let* x := rd (qw_bodies w b) in
    let w := with_body b (Some (with_active v x)) w in
    if v then for_each (into_tree pct) (wb_colliders x) w else for_each out_of_tree (wb_colliders x) w.
(** Collider.cpp:70-82 setCollisionCategoryBits. *)
Definition set_bits (c : nat) (v : Z) (w : qworld) : res qworld :=
  let* k := rd (qw_colliders w c) in Ok (with_collider c (Some (with_bits v k)) w).
(** Collider.cpp:299-301 setIsWorldQueryCollider. *)
Definition set_query (c : nat) (v : bool) (w : qworld) : res qworld :=
  let* k := rd (qw_colliders w c) in Ok (with_collider c (Some (with_query v k)) w).
(** SphereShape::setRadius, BoxShape::setHalfExtents, CapsuleShape::setRadius and setHeight, with
    CollisionShape.cpp:96-102 notifyColliderAboutChangedSize. *)
Definition resize (s : nat) (new : wshape) (w : qworld) : res qworld :=
  let* _ := rd (qw_shapes w s) in
  Ok (QWorld (nupd (qw_shapes w) s (Some new)) (qw_bodies w)
       (fun c => match qw_colliders w c with Some k => Some (if Nat.eqb (wc_shape k) s then with_resized true k else k) | None => None end)
       (qw_next w) (qw_tree w)).
(** DynamicsSystem.cpp:74-113 updateBodiesState: the new transforms of the bodies that are not asleep, and one collider. *)
Definition move_bodies (pose : nat -> transform) (w : qworld) : qworld :=
  QWorld (qw_shapes w)
    (fun b => match qw_bodies w b with Some x => Some (if wb_asleep x then x else with_pose (pose b) x) | None => None end)
    (qw_colliders w) (qw_next w) (qw_tree w).
(** PhysicsWorld.cpp:285-288: the local-to-world transform of a collider that is enabled, then its broad-phase state.
    Simplified: both loops in one, in the order of creation. *)
Definition step_collider (pct : R) (c : nat) (w : qworld) : res qworld :=
  match qw_colliders w c with
  | None => Ok w
  | Some k =>
      let* x := rd (qw_bodies w (wc_body k)) in
      if wb_asleep x then Ok w else move_collider pct c w
  end.
(** PhysicsWorld.cpp:239-308 update, as far as it moves the bodies; [pose]: where they go. *)
Definition step (pct : R) (pose : nat -> transform) (w : qworld) : res qworld :=
  for_each (step_collider pct) (seq 0 (qw_next w)) (move_bodies pose w).

(** The calls of the user. *)
Inductive wop : Type :=
| OpShape (s : wshape) | OpBody (t : transform) | OpAdd (b s : nat) (local : transform) | OpRemove (c : nat) | OpDestroy (b : nat)
| OpTransform (b : nat) (t : transform) | OpLocal (c : nat) (t : transform) | OpActive (b : nat) (v : bool) | OpSleep (b : nat) (v : bool)
| OpBits (c : nat) (v : Z) | OpQuery (c : nat) (v : bool) | OpResize (s : nat) (new : wshape) | OpStep (pose : nat -> transform).
Definition run (pct : R) (o : wop) (w : qworld) : res qworld :=
  match o with
  | OpShape s => Ok (create_shape s w)
  | OpBody t => Ok (create_body t w)
  | OpAdd b s local => add_collider pct b s local w
  | OpRemove c => remove_collider c w
  | OpDestroy b => destroy_body b w
  | OpTransform b t => set_transform pct b t w
  | OpLocal c t => set_local pct c t w
  | OpActive b v => set_active pct b v w
  | OpSleep b v => set_sleeping b v w
  | OpBits c v => set_bits c v w
  | OpQuery c v => set_query c v w
  | OpResize s new => resize s new w
  | OpStep pose => step pct pose w
  end.
Fixpoint runs (pct : R) (os : list wop) (w : qworld) : res qworld :=
  match os with
  | [] => Ok w
  | o :: os => let* w := run pct o w in runs pct os w
  end.

(** RaycastInfo.h:48-79: the fraction, the point and the normal; what the constructor leaves in them. *)
Definition new_info : hit := Hit (-1) vzero vzero.
(** Collider.cpp:173-192 raycast: the answer and what is in the structure of the caller afterwards. *)
Definition collider_ray (eps big : R) (w : qworld) (k : wcollider) (y : ray) (info : hit) : res (bool * hit) :=
  let* x := rd (qw_bodies w (wc_body k)) in
  if negb (wb_active x) then Ok (false, info)
  else
    let* s := rd (qw_shapes w (wc_shape k)) in
    let inv := tr_inverse (wc_world k) in
    let local := Ray (tr_point inv (ray_p1 y)) (tr_point inv (ray_p2 y)) (ray_max y) in
    let answer := wshape_cast eps big s local in
    let info := match answer with Some h => h | None => info end in
    let info := Hit (hit_fraction info) (tr_point (wc_world k) (hit_point info)) (vnormalize eps (quat_vec (t_rot (wc_world k)) (hit_normal info))) in
    Ok (match answer with Some _ => true | None => false end, info).

(** The callback of the user: a new state and the returned fraction, for a collider and a hit. *)
Definition user (St : Type) : Type := St -> nat -> hit -> St * R.
(** BroadPhaseSystem.cpp:224-241 raycastBroadPhaseShape and RaycastInfo.cpp:34-49 raycastAgainstShape; [y] is cut at the
    present fraction. *)
Definition offer {St : Type} (eps big : R) (w : qworld) (mask : Z) (notify : user St) (s : St) (id : Z) (y : ray) : res (St * R) :=
  let* d := get_data id (qw_tree w) in
  let* k := rd (qw_colliders w (Z.to_nat d)) in
  if (negb (Z.eqb (Z.land mask (wc_bits k)) 0) && wc_query k)%bool then
    let* (answer, info) := collider_ray eps big w k y new_info in
    Ok (if answer : bool then notify s (Z.to_nat d) info else (s, ray_max y))
  else Ok (s, -1).
(** DynamicAABBTree.cpp:715-719: the same as a callback of the tree; a failure stops the traversal. *)
Definition at_leaf {St : Type} (eps big : R) (w : qworld) (mask : Z) (notify : user St) (y : ray) (s : res St) (id : Z) (m : R) : res St * R :=
  match (let* s := s in offer eps big w mask notify s id (Ray (ray_p1 y) (ray_p2 y) m)) with
  | Ok (s, f) => (Ok s, f)
  | Ub => (Ub, 0)
  | Fuel => (Fuel, 0)
  end.
(** DynamicAABBTree.cpp:690-692: the direction of the ray.  The zeros of a difference of equal numbers are positive. *)
Definition world_ray (y : ray) : RayModel.ray (T := R) :=
  mk_ray (tree_vec (ray_p1 y)) (tree_vec (vsub (ray_p2 y) (ray_p1 y))) (false, false, false).
(** PhysicsWorld.h:486-490, CollisionDetectionSystem.cpp:1186-1195 and BroadPhaseSystem.cpp:70-77 raycast: the last state of
    the callback. *)
Definition world_cast {St : Type} (eps big : R) (w : qworld) (mask : Z) (notify : user St) (y : ray) (s : St) : res St :=
  let* (s, _) := raycast real_ops (test_ray real_ops Rinv (world_ray y)) (at_leaf eps big w mask notify y) (ray_max y) (Ok s) (qw_tree w) in s.

(** Body.cpp:346-357: the loop over the colliders; [m] is the present maximal fraction. *)
Fixpoint body_loop (eps big : R) (w : qworld) (y : ray) (cs : list nat) (m : R) (found : bool) (info : hit) : res (bool * hit) :=
  match cs with
  | [] => Ok (found, info)
  | c :: cs =>
      let* k := rd (qw_colliders w c) in
      let* (answer, info) := collider_ray eps big w k (Ray (ray_p1 y) (ray_p2 y) m) info in
      if answer : bool then body_loop eps big w y cs (hit_fraction info) true info else body_loop eps big w y cs m found info
  end.
(** Body.cpp:337-361 raycast; [info] is what is in the structure of the caller before. *)
Definition body_cast (eps big : R) (w : qworld) (b : nat) (y : ray) (info : hit) : res (bool * hit) :=
  let* x := rd (qw_bodies w b) in
  if negb (wb_active x) then Ok (false, info) else body_loop eps big w y (wb_colliders x) (ray_max y) false info.
