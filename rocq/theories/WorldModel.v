(** Model of the life of bodies, colliders, joints and overlapping pairs in a world: activation,
    sleeping, body types, filtering and the broad phase.

    Containers are their specifications: component storages and maps are association lists (C04,
    C17), the dynamic tree is a map from node identifiers to enlarged boxes answering queries
    exactly (C18-C20), and the pair storage is the finite map of [PairsSpec] (C22) with the same
    contract.  Boxes are abstract: only overlap, containment and enlargement are used.  Shapes,
    transforms, velocities, contact data and logging are not modelled here. *)
From Verif Require Import Base HashSpec BitsModel PairsModel PairsSpec.
Open Scope Z_scope.

Inductive btype : Type := Static | Kinematic | Dynamic.
Definition btype_eqb (a b : btype) : bool :=
  match a, b with Static, Static | Kinematic, Kinematic | Dynamic, Dynamic => true | _, _ => false end.

(** BodyComponents (mIsActive, mColliders), RigidBodyComponents (mBodyTypes, mIsSleeping) and the
    disabled state shared by the components of a body (PhysicsWorld.cpp:168-188). *)
Record body : Type := mk_body { b_type : btype; b_active : bool; b_sleeping : bool; b_disabled : bool; b_colliders : list Z }.
(** ColliderComponents: mBodiesEntities, mBroadPhaseIds, mCollisionCategoryBits,
    mCollideWithMaskBits, convexity of the shape. *)
Record collider : Type := mk_collider { c_body : Z; c_node : Z; c_cat : Z; c_mask : Z; c_convex : bool }.
(** JointComponents: mBody1Entities, mBody2Entities, mIsCollisionEnabled. *)
Record joint : Type := mk_joint { j_b1 : Z; j_b2 : Z; j_collide : bool }.

Definition w_type t (b : body) := mk_body t (b_active b) (b_sleeping b) (b_disabled b) (b_colliders b).
Definition w_active v (b : body) := mk_body (b_type b) v (b_sleeping b) (b_disabled b) (b_colliders b).
Definition w_sleeping v (b : body) := mk_body (b_type b) (b_active b) v (b_disabled b) (b_colliders b).
Definition w_disabled v (b : body) := mk_body (b_type b) (b_active b) (b_sleeping b) v (b_colliders b).
Definition w_colliders l (b : body) := mk_body (b_type b) (b_active b) (b_sleeping b) (b_disabled b) l.
Definition w_node n (c : collider) := mk_collider (c_body c) n (c_cat c) (c_mask c) (c_convex c).
Definition w_cat v (c : collider) := mk_collider (c_body c) (c_node c) v (c_mask c) (c_convex c).
Definition w_mask v (c : collider) := mk_collider (c_body c) (c_node c) (c_cat c) v (c_convex c).

Section World.
Variable box : Type.
Variable overlap : box -> box -> bool.
Variable covers : box -> box -> bool.
Variable inflate : box -> box.

(** [ww_tree]: the objects of the dynamic tree; [ww_map]: mMapBroadPhaseIdToColliderEntity;
    [ww_moved]: mMovedShapes; [ww_nocoll]: mNoCollisionPairs; [ww_lost]: the colliders of
    mLostContactPairs. *)
Record world : Type := mk_world {
  ww_bodies : list (Z * body);
  ww_coll : list (Z * collider);
  ww_joints : list (Z * joint);
  ww_pairs : pspec;
  ww_tree : list (Z * box);
  ww_map : list (Z * Z);
  ww_moved : list Z;
  ww_nocoll : list (Z * Z);
  ww_lost : list (Z * Z)
}.
Definition init_world : world := mk_world [] [] [] init_pspec [] [] [] [] [].
Definition set_bodies x (w : world) := mk_world x (ww_coll w) (ww_joints w) (ww_pairs w) (ww_tree w) (ww_map w) (ww_moved w) (ww_nocoll w) (ww_lost w).
Definition set_coll x (w : world) := mk_world (ww_bodies w) x (ww_joints w) (ww_pairs w) (ww_tree w) (ww_map w) (ww_moved w) (ww_nocoll w) (ww_lost w).
Definition set_joints x (w : world) := mk_world (ww_bodies w) (ww_coll w) x (ww_pairs w) (ww_tree w) (ww_map w) (ww_moved w) (ww_nocoll w) (ww_lost w).
Definition set_pairs x (w : world) := mk_world (ww_bodies w) (ww_coll w) (ww_joints w) x (ww_tree w) (ww_map w) (ww_moved w) (ww_nocoll w) (ww_lost w).
Definition set_tree x (w : world) := mk_world (ww_bodies w) (ww_coll w) (ww_joints w) (ww_pairs w) x (ww_map w) (ww_moved w) (ww_nocoll w) (ww_lost w).
Definition set_map x (w : world) := mk_world (ww_bodies w) (ww_coll w) (ww_joints w) (ww_pairs w) (ww_tree w) x (ww_moved w) (ww_nocoll w) (ww_lost w).
Definition set_moved x (w : world) := mk_world (ww_bodies w) (ww_coll w) (ww_joints w) (ww_pairs w) (ww_tree w) (ww_map w) x (ww_nocoll w) (ww_lost w).
Definition set_nocoll x (w : world) := mk_world (ww_bodies w) (ww_coll w) (ww_joints w) (ww_pairs w) (ww_tree w) (ww_map w) (ww_moved w) x (ww_lost w).
Definition set_lost x (w : world) := mk_world (ww_bodies w) (ww_coll w) (ww_joints w) (ww_pairs w) (ww_tree w) (ww_map w) (ww_moved w) (ww_nocoll w) x.

(** A loop over an array. *)
Fixpoint each {A} (f : A -> world -> res world) (l : list A) (w : world) : res world :=
  match l with [] => Ok w | x :: l' => let* w := f x w in each f l' w end.

Definition get_body (b : Z) (w : world) : res body := rd (lookup Z.eqb b (ww_bodies w)).
Definition get_coll (c : Z) (w : world) : res collider := rd (lookup Z.eqb c (ww_coll w)).
Definition put_body (b : Z) (x : body) (w : world) : world := set_bodies (m_set Z.eqb b x (ww_bodies w)) w.
Definition put_coll (c : Z) (x : collider) (w : world) : world := set_coll (m_set Z.eqb c x (ww_coll w)) w.
Definition pairs_step (op : pop) (w : world) : res world := let* s := pspec_step (ww_pairs w) op in Ok (set_pairs s w).
Definition find (id : Z) (w : world) : option pair := lookup Z.eqb id (sp_pairs (ww_pairs w)).

(** ColliderComponents::getOverlappingPairs: the pairs of a collider (in another order). *)
Definition pairs_of (c : Z) (w : world) : list Z :=
  filter (fun id => match find id w with Some p => involves c p | None => false end) (nodup Z.eq_dec (map fst (sp_pairs (ww_pairs w)))).

(** CollisionDetectionSystem.cpp:792-803 notifyOverlappingPairsToTestOverlap and
    BroadPhaseSystem.cpp:203-213 addMovedCollider. *)
Definition notify (c : Z) (w : world) : res world := each (fun id => pairs_step (PNeedTest id true)) (pairs_of c w) w.
Definition add_moved (n c : Z) (w : world) : res world :=
  notify c (set_moved (n :: filter (fun x => negb (x =? n)) (ww_moved w)) w).
(** CollisionDetectionSystem.h:436-441 and Body.cpp:295-307 askForBroadPhaseCollisionCheck. *)
Definition ask_check (c : Z) (w : world) : res world :=
  let* x := get_coll c w in
  if c_node x =? -1 then Ok w else add_moved (c_node x) c w.

(** PhysicsWorld.cpp:168-188 setBodyDisabled (the disabled state of the colliders is that of their
    body). *)
Definition set_body_disabled (b : Z) (v : bool) (w : world) : res world :=
  let* x := get_body b w in Ok (put_body b (w_disabled v x) w).

(** RigidBody.cpp:1060-1081 enableOverlappingPairs. *)
Definition enable_pairs (b : Z) (w : world) : res world :=
  let* x := get_body b w in
  each (fun c w => each (fun id w => let* p := rd (find id w) in if p_enabled p then Ok w else pairs_step (PEnable id) w) (pairs_of c w) w) (b_colliders x) w.
(** The bodies of the two colliders of a pair. *)
Definition pair_bodies (p : pair) (w : world) : res (Z * Z) :=
  let* c1 := get_coll (p_c1 p) w in
  let* c2 := get_coll (p_c2 p) w in
  Ok (c_body c1, c_body c2).
(** RigidBody.cpp:1121-1147 checkForDisabledOverlappingPairs. *)
Definition check_disabled_pairs (b : Z) (w : world) : res world :=
  let* x := get_body b w in
  each (fun c w => each (fun id w =>
    let* p := rd (find id w) in
    let* (b1, b2) := pair_bodies p w in
    let* x1 := get_body b1 w in
    let* x2 := get_body b2 w in
    if b_disabled x1 && b_disabled x2 then pairs_step (PDisable id) w else Ok w) (pairs_of c w) w) (b_colliders x) w.

(** RigidBody.cpp:1006-1057 setIsSleeping. *)
Definition set_sleeping (b : Z) (v : bool) (w : world) : res world :=
  let* x := get_body b w in
  if Bool.eqb (b_sleeping x) v then Ok w
  else if btype_eqb (b_type x) Static then Ok w
  else if negb (b_active x) then Ok w
  else
    let* w := set_body_disabled b v (put_body b (w_sleeping v x) w) in
    if v then check_disabled_pairs b w
    else
      let* w := enable_pairs b w in
      each ask_check (b_colliders x) w.

(** RigidBody.cpp:66-130 setType. *)
Definition set_type (b : Z) (t : btype) (w : world) : res world :=
  let* x := get_body b w in
  if btype_eqb (b_type x) t then Ok w
  else
    let* w := set_body_disabled b (btype_eqb t Static) (put_body b (w_type t x) w) in
    let* w := set_sleeping b false w in
    if btype_eqb t Static then check_disabled_pairs b w else Ok w.

(** CollisionDetectionSystem.h:415-426 and BroadPhaseSystem.cpp:82-96 addCollider; the tree chose
    node [n]. *)
Definition add_to_broadphase (c n : Z) (bx : box) (w : world) : res world :=
  let* x := get_coll c w in
  let w := put_coll c (w_node n x) (set_tree (m_set Z.eqb n (inflate bx) (ww_tree w)) w) in
  let* w := add_moved n c w in
  Ok (set_map (m_set Z.eqb n c (ww_map w)) w).

(** CollisionDetectionSystem.cpp:221-236 addLostContactPair. *)
Definition add_lost (p : pair) (w : world) : world := set_lost (ww_lost w ++ [(p_c1 p, p_c2 p)]) w.
(** CollisionDetectionSystem.cpp:175-187 removeOverlappingPair. *)
Definition remove_overlapping (id : Z) (notify_lost : bool) (w : world) : res world :=
  let* p := rd (find id w) in
  pairs_step (PRemove id) (if p_prev p && notify_lost then add_lost p w else w).

(** CollisionDetectionSystem.cpp:1163-1183 and BroadPhaseSystem.cpp:99-113 removeCollider.  The loop
    takes the first pair of the collider until none is left. *)
Definition remove_from_broadphase (c : Z) (w : world) : res world :=
  let* x := get_coll c w in
  let* w := each (fun id => remove_overlapping id false) (pairs_of c w) w in
  let n := c_node x in
  Ok (set_moved (filter (fun m => negb (m =? n)) (ww_moved w))
       (set_tree (m_remove Z.eqb n (ww_tree w))
         (put_coll c (w_node (-1) x)
           (set_map (m_remove Z.eqb n (ww_map w)) w)))).

(** RigidBody.cpp:1084-1118 awakeNeighborDisabledBodies. *)
Definition awake_neighbors (b : Z) (w : world) : res world :=
  let* x := get_body b w in
  each (fun c w => each (fun id w =>
    let* p := rd (find id w) in
    if p_prev p then
      let* (b1, b2) := pair_bodies p w in
      let other := if b =? b1 then b2 else b1 in
      let* y := get_body other w in
      if b_disabled y then set_sleeping other false w else Ok w
    else Ok w) (pairs_of c w) w) (b_colliders x) w.

(** RigidBody.cpp:711-718 and Body.cpp:170-203 removeCollider. *)
Definition remove_collider (c : Z) (w : world) : res world :=
  let* x := get_coll c w in
  let b := c_body x in
  let* w := awake_neighbors b w in
  let* x := get_coll c w in
  let* w := (if c_node x =? -1 then Ok w else remove_from_broadphase c w) in
  let* y := get_body b w in
  let w := put_body b (w_colliders (filter (fun d => negb (d =? c)) (b_colliders y)) y) w in
  pairs_step (PDeleteCollider c) (set_coll (m_remove Z.eqb c (ww_coll w)) w).

(** RigidBody.cpp:653-703 addCollider: 0x0001 and 0xFFFF are the default filter bits. *)
Definition add_collider (b c n : Z) (bx : box) (convex : bool) (w : world) : res world :=
  let* x := get_body b w in
  let* w := pairs_step (PAddCollider c) (put_coll c (mk_collider b (-1) 1 65535 convex) w) in
  let w := put_body b (w_colliders (b_colliders x ++ [c]) x) w in
  if b_active x then add_to_broadphase c n bx w else Ok w.

(** Body.cpp:247-291 setIsActive. *)
Definition body_set_active (b : Z) (v : bool) (node : Z -> Z) (bx : Z -> box) (w : world) : res world :=
  let* x := get_body b w in
  if Bool.eqb (b_active x) v then Ok w
  else
    let w := put_body b (w_active v x) w in
    if v then each (fun c => add_to_broadphase c (node c) (bx c)) (b_colliders x) w
    else each (fun c w => let* y := get_coll c w in if c_node y =? -1 then Ok w else remove_from_broadphase c w) (b_colliders x) w.
(** RigidBody.cpp:1185-1193 setIsActive. *)
Definition set_active (b : Z) (v : bool) (node : Z -> Z) (bx : Z -> box) (w : world) : res world :=
  let* x := get_body b w in
  if Bool.eqb (b_active x) v then Ok w
  else
    let* w := set_sleeping b (negb v) w in
    body_set_active b v node bx w.

(** BroadPhaseSystem.cpp:139-200 updateColliderInternal for one collider, with its new box. *)
Definition update_collider (bx : Z -> box) (force : Z -> bool) (c : Z) (w : world) : res world :=
  let* x := get_coll c w in
  let n := c_node x in
  if n =? -1 then Ok w
  else
    let* old := rd (lookup Z.eqb n (ww_tree w)) in
    if negb (force c) && covers old (bx c) then Ok w
    else add_moved n c (set_tree (m_set Z.eqb n (inflate (bx c)) (ww_tree w)) w).
(** Body.cpp:225-241 updateBroadPhaseState. *)
Definition update_body (b : Z) (bx : Z -> box) (force : Z -> bool) (w : world) : res world :=
  let* x := get_body b w in
  each (update_collider bx force) (b_colliders x) w.
(** RigidBody.cpp:837-862 setTransform. *)
Definition set_transform (b : Z) (bx : Z -> box) (force : Z -> bool) (w : world) : res world :=
  let* w := set_sleeping b false w in
  update_body b bx force w.
(** CollisionDetectionSystem::updateColliders at the end of an update (BroadPhaseSystem.cpp:128-136):
    only the components of enabled bodies; here for one body. *)
Definition integrate (b : Z) (bx : Z -> box) (force : Z -> bool) (w : world) : res world :=
  let* x := get_body b w in
  if b_disabled x then Ok w else update_body b bx force w.

(** Collider.cpp:71-106 setCollisionCategoryBits, setCollideWithMaskBits. *)
Definition set_category (c v : Z) (w : world) : res world :=
  let* x := get_coll c w in ask_check c (put_coll c (w_cat v x) w).
Definition set_mask (c v : Z) (w : world) : res world :=
  let* x := get_coll c w in ask_check c (put_coll c (w_mask v x) w).

(** OverlappingPairs.h:448-456 computeBodiesIndexPair. *)
Definition body_pair (b1 b2 : Z) : Z * Z := if b1 <? b2 then (b1, b2) else (b2, b1).
Definition pair_eqb (p q : Z * Z) : bool := (fst p =? fst q) && (snd p =? snd q).
Definition forbidden (b1 b2 : Z) (w : world) : bool := existsb (pair_eqb (body_pair b1 b2)) (ww_nocoll w).

(** CollisionDetectionSystem.cpp:239-267 addNoCollisionPair. *)
Definition add_no_collision (b1 b2 : Z) (w : world) : res world :=
  let w := set_nocoll (body_pair b1 b2 :: filter (fun q => negb (pair_eqb (body_pair b1 b2) q)) (ww_nocoll w)) w in
  let* x := get_body b1 w in
  let ids := filter (fun id => match find id w with
    | Some p => match lookup Z.eqb (p_c1 p) (ww_coll w), lookup Z.eqb (p_c2 p) (ww_coll w) with
                | Some c1, Some c2 => (c_body c1 =? b2) || (c_body c2 =? b2)
                | _, _ => false
                end
    | None => false
    end) (flat_map (fun c => pairs_of c w) (b_colliders x)) in
  each (fun id => remove_overlapping id true) ids w.
(** CollisionDetectionSystem.h:429-431 removeNoCollisionPair. *)
Definition remove_no_collision (b1 b2 : Z) (w : world) : world :=
  set_nocoll (filter (fun q => negb (pair_eqb (body_pair b1 b2) q)) (ww_nocoll w)) w.

(** PhysicsWorld.cpp:483-600 createJoint. *)
Definition create_joint (j b1 b2 : Z) (collide : bool) (w : world) : res world :=
  let* _ := get_body b1 w in
  let* _ := get_body b2 w in
  let w := set_joints (m_set Z.eqb j (mk_joint b1 b2 collide) (ww_joints w)) w in
  if collide then Ok w else add_no_collision b1 b2 w.
(** PhysicsWorld.cpp:606-656 destroyJoint. *)
Definition destroy_joint (j : Z) (w : world) : res world :=
  let* x := rd (lookup Z.eqb j (ww_joints w)) in
  let w := if j_collide x then w else remove_no_collision (j_b1 x) (j_b2 x) w in
  let* w := set_sleeping (j_b1 x) false w in
  let* w := set_sleeping (j_b2 x) false w in
  Ok (set_joints (m_remove Z.eqb j (ww_joints w)) w).
Definition joints_of (b : Z) (w : world) : list Z :=
  filter (fun j => match lookup Z.eqb j (ww_joints w) with Some x => (j_b1 x =? b) || (j_b2 x =? b) | None => false end) (nodup Z.eq_dec (map fst (ww_joints w))).

(** PhysicsWorld.cpp:401-441 createRigidBody. *)
Definition create_body (b : Z) (w : world) : world := put_body b (mk_body Dynamic true false false []) w.
(** PhysicsWorld.cpp:448-478 destroyRigidBody. *)
Definition destroy_body (b : Z) (w : world) : res world :=
  let* x := get_body b w in
  let* w := each remove_collider (b_colliders x) w in
  let* w := each destroy_joint (joints_of b w) w in
  Ok (set_bodies (m_remove Z.eqb b (ww_bodies w)) w).

(** BroadPhaseSystem.cpp:216-230 computeOverlappingPairs: every moved shape with every shape whose
    enlarged box overlaps its own. *)
Definition overlapping_nodes (w : world) : res (list (Z * Z)) :=
  (fix go (l : list Z) : res (list (Z * Z)) :=
     match l with
     | [] => Ok []
     | m :: l' =>
         let* bm := rd (lookup Z.eqb m (ww_tree w)) in
         let* r := go l' in
         Ok (map (fun e => (m, fst e)) (filter (fun e => overlap bm (snd e)) (ww_tree w)) ++ r)
     end) (ww_moved w).

(** CollisionDetectionSystem.cpp:278-343 updateOverlappingPairs, one pair of nodes. *)
Definition filter_pass (x1 x2 : collider) : bool :=
  negb (Z.land (c_mask x1) (c_cat x2) =? 0) && negb (Z.land (c_cat x1) (c_mask x2) =? 0).
Definition update_pair_of_nodes (nn : Z * Z) (w : world) : res world :=
  let (n1, n2) := nn in
  if n1 =? n2 then Ok w
  else
    let* c1 := rd (lookup Z.eqb n1 (ww_map w)) in
    let* c2 := rd (lookup Z.eqb n2 (ww_map w)) in
    let* x1 := get_coll c1 w in
    let* x2 := get_coll c2 w in
    if (c_body x1 =? c_body x2) || forbidden (c_body x1) (c_body x2) w then Ok w
    else
      match find (pair_id n1 n2) w with
      | Some _ => pairs_step (PSetTest (pair_id n1 n2) false) w
      | None =>
          if filter_pass x1 x2 && (c_convex x1 || c_convex x2)
          then pairs_step (PAdd c1 (c_node x1) c2 (c_node x2) (c_convex x1 && c_convex x2)) w
          else Ok w
      end.

(** CollisionDetectionSystem.cpp:124-167 removeNonOverlappingPairs, one enabled pair. *)
Definition retest_pair (id : Z) (w : world) : res world :=
  let* p := rd (find id w) in
  if p_enabled p && p_test p then
    let* b1 := rd (lookup Z.eqb (p_b1 p) (ww_tree w)) in
    let* b2 := rd (lookup Z.eqb (p_b2 p) (ww_tree w)) in
    if overlap b1 b2 then pairs_step (PSetTest id false) w
    else pairs_step (PRemove id) (if p_prev p then add_lost p w else w)
  else Ok w.
Definition all_ids (w : world) : list Z := nodup Z.eq_dec (map fst (sp_pairs (ww_pairs w))).

(** CollisionDetectionSystem.cpp:103-121 computeBroadPhase. *)
Definition broad_phase (w : world) : res world :=
  let* nodes := overlapping_nodes w in
  let* w := each update_pair_of_nodes nodes (set_moved [] w) in
  each retest_pair (all_ids w) w.

(** The narrow phase found contacts for the pairs [ids] (CollisionDetectionSystem.cpp:389, 441 and
    1230; a pair that is not enabled is never tested). *)
Definition narrow_phase (ids : list Z) (w : world) : res world :=
  let* w := pairs_step PClearCurrent w in
  each (fun id w => match find id w with Some p => if p_enabled p then pairs_step (PSetColliding id) w else Ok w | None => Ok w end) ids w.
(** CollisionDetectionSystem.cpp:978-1012 computeLostContactPairs. *)
Definition lost_contacts (w : world) : world :=
  set_lost (ww_lost w ++ flat_map (fun id => match find id w with
    | Some p => if p_enabled p && p_prev p && negb (p_cur p) then [(p_c1 p, p_c2 p)] else []
    | None => [] end) (all_ids w)) w.
(** CollisionDetectionSystem.cpp:1708-1726 reportContactsAndTriggers: reading a collider of an event
    whose component is gone is an access out of range. *)
Definition report (w : world) : res world :=
  let* w := each (fun e w => let* _ := get_coll (fst e) w in let* _ := get_coll (snd e) w in Ok w) (ww_lost w) w in
  let* w := pairs_step PUpdatePrevious w in
  Ok (set_lost [] w).

(** Calls of the user, and the stages of an update. *)
Inductive wop : Type :=
| WCreateBody (b : Z)
| WDestroyBody (b : Z)
| WAddCollider (b c n : Z) (bx : box) (convex : bool)
| WRemoveCollider (c : Z)
| WSetType (b : Z) (t : btype)
| WSetActive (b : Z) (v : bool) (node : Z -> Z) (bx : Z -> box)
| WSetTransform (b : Z) (bx : Z -> box) (force : Z -> bool)
| WSetCategory (c v : Z)
| WSetMask (c v : Z)
| WCreateJoint (j b1 b2 : Z) (collide : bool)
| WDestroyJoint (j : Z)
| WWake (b : Z)
| WSleep (b : Z)
| WBroadPhase
| WNarrowPhase (ids : list Z)
| WLostContacts
| WReport
| WIntegrate (b : Z) (bx : Z -> box) (force : Z -> bool).
Definition wstep (w : world) (op : wop) : res world :=
  match op with
  | WCreateBody b => Ok (create_body b w)
  | WDestroyBody b => destroy_body b w
  | WAddCollider b c n bx convex => add_collider b c n bx convex w
  | WRemoveCollider c => remove_collider c w
  | WSetType b t => set_type b t w
  | WSetActive b v node bx => set_active b v node bx w
  | WSetTransform b bx force => set_transform b bx force w
  | WSetCategory c v => set_category c v w
  | WSetMask c v => set_mask c v w
  | WCreateJoint j b1 b2 collide => create_joint j b1 b2 collide w
  | WDestroyJoint j => destroy_joint j w
  | WWake b => set_sleeping b false w
  | WSleep b => set_sleeping b true w
  | WBroadPhase => broad_phase w
  | WNarrowPhase ids => narrow_phase ids w
  | WLostContacts => Ok (lost_contacts w)
  | WReport => report w
  | WIntegrate b bx force => integrate b bx force w
  end.
Fixpoint wrun (w : world) (ops : list wop) : res world :=
  match ops with [] => Ok w | op :: ops' => let* w := wstep w op in wrun w ops' end.
End World.
