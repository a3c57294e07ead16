(** Model of the life of the bodies and joints of a world: creation, destruction, sleeping,
    activation and type of the bodies, and the destruction of the whole world
    (src/engine/PhysicsWorld.cpp, src/body/RigidBody.cpp).

    Simplifications.  A body or a joint is named by one number, which stands for its pointer and for
    its entity; numbers are never reused (the reuse of identifiers is C16).  The component arrays of
    the rigid bodies and of the joints are lists of records in the order of their slots, with the
    number of enabled slots (the memory behind them and the map from entities to slots is C17).
    BodyComponents, TransformComponents and the components of the single joint classes are left out:
    they are added, removed, enabled and disabled together with the ones here.  Colliders, their
    overlapping pairs and the pairs of bodies that must not collide (C29) are left out. *)
From Verif Require Import Base.

Section Packed.
Context {A : Type}.

(** Assignment of one slot of an array. *)
Fixpoint set_nth (i : nat) (x : A) (l : list A) : list A :=
  match l, i with
  | [], _ => []
  | _ :: l', O => x :: l'
  | y :: l', S i' => y :: set_nth i' x l'
  end.

(** The slots in use and the number of enabled ones (Components.h:56-79: mNbComponents is the
    length, mDisabledStartIndex the second part). *)
Record packed : Type := mk_packed { slots : list A; enabled : nat }.

(** Components.cpp:69-99 prepareAddComponent and addComponent of the classes: a disabled component
    goes to the end; an enabled one takes the place of the first disabled one, which is moved to
    the end. *)
Definition packed_add (disabled : bool) (x : A) (p : packed) : packed :=
  if disabled then mk_packed (slots p ++ [x]) (enabled p)
  else
    match nth_error (slots p) (enabled p) with
    | Some y => mk_packed (set_nth (enabled p) x (slots p) ++ [y]) (enabled p + 1)
    | None => mk_packed (slots p ++ [x]) (enabled p + 1)
    end.

(** Copy of the slot [src] to the slot [dst] (moveComponentToIndex); [dst = src] stands for the
    cases in which the code does not move anything. *)
Definition move_slot (src dst : nat) (l : list A) : res (list A) :=
  let* x := rd (nth_error l src) in Ok (set_nth dst x l).

(** Components.cpp:108-156 removeComponent, for the component of slot [i]. *)
Definition packed_remove (i : nat) (p : packed) : res packed :=
  let n := length (slots p) in
  if enabled p <=? i then
    let* l := move_slot (n - 1) i (slots p) in
    Ok (mk_packed (removelast l) (enabled p))
  else
    let* l1 := move_slot (enabled p - 1) i (slots p) in
    let* l2 := move_slot (n - 1) (enabled p - 1) l1 in
    Ok (mk_packed (removelast l2) (enabled p - 1)).

(** swapComponents of the classes. *)
Definition swap_slots (i j : nat) (l : list A) : res (list A) :=
  let* x := rd (nth_error l i) in
  let* y := rd (nth_error l j) in
  Ok (set_nth j x (set_nth i y l)).

(** Components.cpp:159-194 setIsEntityDisabled, for the component of slot [i]. *)
Definition packed_disable (i : nat) (disabled : bool) (p : packed) : res packed :=
  if negb disabled && (enabled p <=? i) then
    let* l := swap_slots i (enabled p) (slots p) in
    Ok (mk_packed l (enabled p + 1))
  else if disabled && (i <? enabled p) then
    let* l := swap_slots i (enabled p - 1) (slots p) in
    Ok (mk_packed l (enabled p - 1))
  else Ok p.
End Packed.
Arguments packed : clear implicits.

(** mMapEntityToComponentIndex[entity]: the slot of the component that satisfies [f]. *)
Fixpoint slot_of {A} (f : A -> bool) (l : list A) : option nat :=
  match l with
  | [] => None
  | x :: l' => if f x then Some O else option_map S (slot_of f l')
  end.

(** Array::remove(element) (Array.h:337-370): the first equal element is taken out; removing an
    absent element is undefined (removeAt of the end, excluded by an assertion). *)
Fixpoint array_remove (x : nat) (l : list nat) : res (list nat) :=
  match l with
  | [] => Ub
  | y :: l' => if Nat.eqb x y then Ok l' else let* r := array_remove x l' in Ok (y :: r)
  end.

(** RigidBodyComponents.h:76-151 and BodyComponents.h (mIsActive): mIsSleeping, whether mBodyTypes
    is STATIC, mIsActive, mJoints. *)
Record body : Type := mk_body {
  b_id : nat;
  b_asleep : bool;
  b_static : bool;
  b_active : bool;
  b_joints : list nat
}.

(** JointComponents.h:61-76: mJointEntities, mBody1Entities, mBody2Entities. *)
Record joint : Type := mk_joint { j_id : nat; j_body1 : nat; j_body2 : nat }.

(** An object whose destructor was called and whose memory was released. *)
Inductive object : Type := OBody (b : nat) | OJoint (j : nat).

(** PhysicsWorld.h: mRigidBodyComponents, mJointsComponents, mRigidBodies; [w_next] is the next
    unused number and [w_gone] the objects released so far, the last one first. *)
Record world : Type := mk_world {
  w_bodies : packed body;
  w_joints : packed joint;
  w_array : list nat;
  w_next : nat;
  w_gone : list object
}.

Definition is_body (b : nat) (x : body) : bool := Nat.eqb (b_id x) b.
Definition is_joint (j : nat) (x : joint) : bool := Nat.eqb (j_id x) j.

Definition set_bodies (p : packed body) (w : world) : world :=
  mk_world p (w_joints w) (w_array w) (w_next w) (w_gone w).
Definition set_joints (p : packed joint) (w : world) : world :=
  mk_world (w_bodies w) p (w_array w) (w_next w) (w_gone w).
Definition set_array (l : list nat) (w : world) : world :=
  mk_world (w_bodies w) (w_joints w) l (w_next w) (w_gone w).
Definition release (o : object) (w : world) : world :=
  mk_world (w_bodies w) (w_joints w) (w_array w) (w_next w) (o :: w_gone w).

(** Access to the component of a body; a missing component is undefined (Map::operator[]). *)
Definition body_slot (b : nat) (w : world) : res nat := rd (slot_of (is_body b) (slots (w_bodies w))).
Definition get_body (b : nat) (w : world) : res body :=
  let* i := body_slot b w in rd (nth_error (slots (w_bodies w)) i).
(** Access to the component of a joint. *)
Definition get_joint (j : nat) (w : world) : res joint :=
  let* i := rd (slot_of (is_joint j) (slots (w_joints w))) in rd (nth_error (slots (w_joints w)) i).

(** Write to the component of a body. *)
Definition put_body (x : body) (w : world) : res world :=
  let* i := body_slot (b_id x) w in
  Ok (set_bodies (mk_packed (set_nth i x (slots (w_bodies w))) (enabled (w_bodies w))) w).

(** PhysicsWorld.cpp:167-186 setBodyDisabled. *)
Definition disable_body (b : nat) (disabled : bool) (w : world) : res world :=
  let* i := body_slot b w in
  let* p := packed_disable i disabled (w_bodies w) in
  Ok (set_bodies p w).

Definition with_asleep (v : bool) (x : body) : body := mk_body (b_id x) v (b_static x) (b_active x) (b_joints x).
Definition with_static (v : bool) (x : body) : body := mk_body (b_id x) (b_asleep x) v (b_active x) (b_joints x).
Definition with_active (v : bool) (x : body) : body := mk_body (b_id x) (b_asleep x) (b_static x) v (b_joints x).
Definition with_joints (l : list nat) (x : body) : body := mk_body (b_id x) (b_asleep x) (b_static x) (b_active x) l.

(** RigidBody.cpp:1006-1056 setIsSleeping; sleep times, velocities and overlapping pairs left out. *)
Definition set_sleeping (b : nat) (v : bool) (w : world) : res world :=
  let* x := get_body b w in
  if Bool.eqb (b_asleep x) v then Ok w
  else if b_static x then Ok w
  else if negb (b_active x) then Ok w
  else
    let* w1 := put_body (with_asleep v x) w in
    disable_body b v w1.

(** RigidBody.cpp:66-130 setType, for STATIC ([true]) and the two other types ([false]); masses,
    velocities and forces left out. *)
Definition set_static (b : nat) (v : bool) (w : world) : res world :=
  let* x := get_body b w in
  if Bool.eqb (b_static x) v then Ok w
  else
    let* w1 := put_body (with_static v x) w in
    let* w2 := disable_body b v w1 in
    set_sleeping b false w2.

(** RigidBody.cpp:1185-1193 and Body.cpp:247-291 setIsActive; colliders left out. *)
Definition set_active (b : nat) (v : bool) (w : world) : res world :=
  let* x := get_body b w in
  if Bool.eqb (b_active x) v then Ok w
  else
    let* w1 := set_sleeping b (negb v) w in
    let* x1 := get_body b w1 in
    put_body (with_active v x1) w1.

(** PhysicsWorld.cpp:401-442 createRigidBody (a dynamic, active and awake body). *)
Definition create_body (w : world) : res world :=
  let b := w_next w in
  Ok (mk_world (packed_add false (mk_body b false false true []) (w_bodies w)) (w_joints w)
        (w_array w ++ [b]) (b + 1) (w_gone w)).

(** RigidBodyComponents.h:844-856 addJointToBody and removeJointFromBody. *)
Definition add_joint_to (b j : nat) (w : world) : res world :=
  let* x := get_body b w in put_body (with_joints (b_joints x ++ [j]) x) w.
Definition remove_joint_from (b j : nat) (w : world) : res world :=
  let* x := get_body b w in
  let* l := array_remove j (b_joints x) in
  put_body (with_joints l x) w.

(** Components.h:136-140 getIsEntityDisabled of the rigid body components. *)
Definition body_disabled (b : nat) (w : world) : res bool :=
  let* i := body_slot b w in Ok (enabled (w_bodies w) <=? i).

(** PhysicsWorld.cpp:483-600 createJoint and 672-683 addJointToBodies. *)
Definition create_joint (b1 b2 : nat) (w : world) : res world :=
  let j := w_next w in
  let* d1 := body_disabled b1 w in
  let* d2 := body_disabled b2 w in
  let w1 := mk_world (w_bodies w) (packed_add (d1 && d2) (mk_joint j b1 b2) (w_joints w)) (w_array w) (j + 1) (w_gone w) in
  let* w2 := add_joint_to b1 j w1 in
  add_joint_to b2 j w2.

(** PhysicsWorld.cpp:606-656 destroyJoint, with Joint.cpp:41-53 getBody1 and getBody2. *)
Definition destroy_joint (j : nat) (w : world) : res world :=
  let* x := get_joint j w in
  let* _ := get_body (j_body1 x) w in
  let* _ := get_body (j_body2 x) w in
  let* w1 := set_sleeping (j_body1 x) false w in
  let* w2 := set_sleeping (j_body2 x) false w1 in
  let* w3 := remove_joint_from (j_body1 x) j w2 in
  let* w4 := remove_joint_from (j_body2 x) j w3 in
  let* i := rd (slot_of (is_joint j) (slots (w_joints w4))) in
  let* p := packed_remove i (w_joints w4) in
  Ok (release (OJoint j) (set_joints p w4)).

(** The loop of PhysicsWorld.cpp:457-460.  [joints] is a reference to the array of joints in the
    slot [i] that the body had before the loop; it keeps referring to that slot when the
    components are moved.  RigidBodyComponents.cpp:305-375 swapComponents destroys the array of the
    slot and constructs the one of the other component in the same place. *)
Fixpoint destroy_joints_at (fuel : nat) (i : nat) (w : world) : res world :=
  match fuel with
  | O => Fuel
  | S fuel' =>
      let* x := rd (nth_error (slots (w_bodies w)) i) in
      match b_joints x with
      | [] => Ok w
      | j :: _ => let* w1 := destroy_joint j w in destroy_joints_at fuel' i w1
      end
  end.

(** PhysicsWorld.cpp:448-476 destroyRigidBody; colliders left out.  Every turn of the loop takes one
    joint away, so the number of joints is enough fuel. *)
Definition destroy_body (b : nat) (w : world) : res world :=
  let* i := body_slot b w in
  let* w1 := destroy_joints_at (S (length (slots (w_joints w)))) i w in
  let* i1 := body_slot b w1 in
  let* p := packed_remove i1 (w_bodies w1) in
  let* l := array_remove b (w_array w1) in
  Ok (release (OBody b) (set_array l (set_bodies p w1))).

(** PhysicsWorld.cpp:188-206 setJointDisabled, and one turn of the loop of 363-394
    enableDisableJoints. *)
Definition update_joint (j : nat) (w : world) : res world :=
  let* x := get_joint j w in
  let* d1 := body_disabled (j_body1 x) w in
  let* d2 := body_disabled (j_body2 x) w in
  let* i := rd (slot_of (is_joint j) (slots (w_joints w))) in
  let* p := packed_disable i (d1 && d2) (w_joints w) in
  Ok (set_joints p w).

(** PhysicsWorld.cpp:144-147: the index runs upwards while the joints are taken out. *)
Fixpoint world_joints_loop (fuel : nat) (i : nat) (w : world) : res world :=
  match fuel with
  | O => Fuel
  | S fuel' =>
      if i <? length (slots (w_joints w)) then
        let* x := rd (nth_error (slots (w_joints w)) i) in
        let* w1 := destroy_joint (j_id x) w in
        world_joints_loop fuel' (S i) w1
      else Ok w
  end.

(** PhysicsWorld.cpp:149-154: the index runs down from the number of bodies. *)
Fixpoint world_bodies_loop (i : nat) (w : world) : res world :=
  match i with
  | O => Ok w
  | S i' =>
      let* b := rd (nth_error (w_array w) i') in
      let* w1 := destroy_body b w in
      world_bodies_loop i' w1
  end.

(** PhysicsWorld.cpp:130-165 ~PhysicsWorld; the assertions at its end are not executed. *)
Definition destroy_world (w : world) : res world :=
  let* w1 := world_joints_loop (S (length (slots (w_joints w)))) 0 w in
  world_bodies_loop (length (w_array w1)) w1.

(** A new world. *)
Definition empty_world : world := mk_world (mk_packed [] 0) (mk_packed [] 0) [] 0 [].

(** One call of the interface, or one of the effects of update() on sleeping bodies (871-926) and on
    the enabled joints. *)
Inductive lop : Type :=
| LBody | LJoint (b1 b2 : nat) | LDestroyJoint (j : nat) | LDestroyBody (b : nat)
| LSleep (b : nat) (v : bool) | LStatic (b : nat) (v : bool) | LActive (b : nat) (v : bool)
| LUpdateJoint (j : nat).

Definition life_step (o : lop) (w : world) : res world :=
  match o with
  | LBody => create_body w
  | LJoint b1 b2 => create_joint b1 b2 w
  | LDestroyJoint j => destroy_joint j w
  | LDestroyBody b => destroy_body b w
  | LSleep b v => set_sleeping b v w
  | LStatic b v => set_static b v w
  | LActive b v => set_active b v w
  | LUpdateJoint j => update_joint j w
  end.

Fixpoint life_run (os : list lop) (w : world) : res world :=
  match os with
  | [] => Ok w
  | o :: os' => let* w1 := life_step o w in life_run os' w1
  end.
