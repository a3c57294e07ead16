(** Model of the colliders of bodies, of the shapes they share and of their roles (trigger,
    simulation collider), over several worlds (src/body/Body.cpp, src/body/RigidBody.cpp,
    src/collision/Collider.cpp, src/engine/PhysicsWorld.cpp, src/engine/PhysicsCommon.cpp).

    Simplifications.  An object is named by one number that stands for its pointer and for its
    entity; numbers are never reused (C16).  Components are partial maps from names to records (the
    arrays behind them are C17).  Joints are left out (C145), as are transforms, boxes, materials,
    masses, the overlapping pairs (C27, C63) and sleeping (RigidBody.cpp:729 wakes the neighbours of a body
    that loses a collider). *)
From Verif Require Import Base LifeModel.

(** BodyComponents.h:60-70: the world of the body (Body::mWorld), mColliders, mIsActive,
    mHasSimulationCollider. *)
Record kbody : Type := mk_kbody { kb_world : nat; kb_colliders : list nat; kb_active : bool; kb_sim : bool }.

(** ColliderComponents.h:60-110: mBodiesEntities, mCollisionShapes, whether mBroadPhaseIds is not
    -1, mHasCollisionShapeChangedSize, mIsTrigger, mIsSimulationCollider. *)
Record kcol : Type := mk_kcol {
  kc_body : nat; kc_shape : nat; kc_tree : bool; kc_changed : bool; kc_trigger : bool; kc_sim : bool }.

(** The worlds with their mRigidBodies, the bodies, the colliders, the shapes with their mColliders
    (CollisionShape.h:80), and the next unused name. *)
Record scene : Type := mk_scene {
  k_worlds : nat -> option (list nat);
  k_bodies : nat -> option kbody;
  k_cols : nat -> option kcol;
  k_shapes : nat -> option (list nat);
  k_next : nat
}.

Definition upd {A} (n : nat) (v : option A) (m : nat -> option A) : nat -> option A :=
  fun i => if Nat.eqb i n then v else m i.

Definition set_kworld (n : nat) (v : option (list nat)) (k : scene) : scene :=
  mk_scene (upd n v (k_worlds k)) (k_bodies k) (k_cols k) (k_shapes k) (k_next k).
Definition set_kbody (n : nat) (v : option kbody) (k : scene) : scene :=
  mk_scene (k_worlds k) (upd n v (k_bodies k)) (k_cols k) (k_shapes k) (k_next k).
Definition set_kcol (n : nat) (v : option kcol) (k : scene) : scene :=
  mk_scene (k_worlds k) (k_bodies k) (upd n v (k_cols k)) (k_shapes k) (k_next k).
Definition set_kshape (n : nat) (v : option (list nat)) (k : scene) : scene :=
  mk_scene (k_worlds k) (k_bodies k) (k_cols k) (upd n v (k_shapes k)) (k_next k).
Definition fresh_name (k : scene) : scene :=
  mk_scene (k_worlds k) (k_bodies k) (k_cols k) (k_shapes k) (k_next k + 1).

Definition with_cols (l : list nat) (x : kbody) : kbody := mk_kbody (kb_world x) l (kb_active x) (kb_sim x).
Definition with_kactive (v : bool) (x : kbody) : kbody := mk_kbody (kb_world x) (kb_colliders x) v (kb_sim x).
Definition with_kbsim (v : bool) (x : kbody) : kbody := mk_kbody (kb_world x) (kb_colliders x) (kb_active x) v.
Definition with_tree (v : bool) (y : kcol) : kcol :=
  mk_kcol (kc_body y) (kc_shape y) v (kc_changed y) (kc_trigger y) (kc_sim y).
Definition with_changed (v : bool) (y : kcol) : kcol :=
  mk_kcol (kc_body y) (kc_shape y) (kc_tree y) v (kc_trigger y) (kc_sim y).
Definition with_trigger (v : bool) (y : kcol) : kcol :=
  mk_kcol (kc_body y) (kc_shape y) (kc_tree y) (kc_changed y) v (kc_sim y).
Definition with_sim (v : bool) (y : kcol) : kcol :=
  mk_kcol (kc_body y) (kc_shape y) (kc_tree y) (kc_changed y) (kc_trigger y) v.

(** PhysicsCommon.cpp:221-240 createPhysicsWorld. *)
Definition create_world (k : scene) : res scene :=
  Ok (fresh_name (set_kworld (k_next k) (Some []) k)).

(** PhysicsCommon.cpp:271-283 createSphereShape, and the other shapes alike. *)
Definition create_shape (k : scene) : res scene :=
  Ok (fresh_name (set_kshape (k_next k) (Some []) k)).

(** PhysicsWorld.cpp:401-442 createRigidBody; BodyComponents.cpp:98-119 addComponent. *)
Definition create_kbody (w : nat) (k : scene) : res scene :=
  let* l := rd (k_worlds k w) in
  Ok (fresh_name (set_kworld w (Some (l ++ [k_next k])) (set_kbody (k_next k) (Some (mk_kbody w [] true false)) k))).

(** CollisionDetectionSystem.h:415-426 and BroadPhaseSystem.cpp:80-93 addCollider: a collider that
    is in the tree already is excluded by an assertion. *)
Definition enter_tree (c : nat) (k : scene) : res scene :=
  let* y := rd (k_cols k c) in
  if kc_tree y then Ub else Ok (set_kcol c (Some (with_tree true y)) k).

(** CollisionDetectionSystem.cpp:1163-1183 and BroadPhaseSystem.cpp:96-110 removeCollider, behind the
    tests of Body.cpp:176 and Body.cpp:280. *)
Definition leave_tree (c : nat) (k : scene) : res scene :=
  let* y := rd (k_cols k c) in
  if kc_tree y then Ok (set_kcol c (Some (with_tree false y)) k) else Ok k.

(** RigidBody.cpp:661-721 addCollider; ColliderComponents.cpp:138-168 addComponent. *)
Definition add_collider (b s : nat) (k : scene) : res scene :=
  let c := k_next k in
  let* x := rd (k_bodies k b) in
  let k1 := set_kcol c (Some (mk_kcol b s false false false true)) (fresh_name k) in
  let k2 := set_kbody b (Some (with_cols (kb_colliders x ++ [c]) x)) k1 in
  let* l := rd (k_shapes k2 s) in
  let k3 := set_kshape s (Some (l ++ [c])) k2 in
  let* k4 := if kb_active x then enter_tree c k3 else Ok k3 in
  let* x4 := rd (k_bodies k4 b) in
  Ok (set_kbody b (Some (with_kbsim true x4)) k4).

(** Body.cpp:470-485 updateHasSimulationCollider: the loop over the colliders. *)
Fixpoint any_sim (l : list nat) (k : scene) : res bool :=
  match l with
  | [] => Ok false
  | c :: l' => let* y := rd (k_cols k c) in if kc_sim y then Ok true else any_sim l' k
  end.
(** Body.cpp:470-485 updateHasSimulationCollider; the flag is only ever set to true. *)
Definition update_has_sim (b : nat) (k : scene) : res scene :=
  let* x := rd (k_bodies k b) in
  let* a := any_sim (kb_colliders x) k in
  if a then Ok (set_kbody b (Some (with_kbsim true x)) k) else Ok k.

(** Body.cpp:170-201 removeCollider. *)
Definition remove_collider (b c : nat) (k : scene) : res scene :=
  let* k1 := leave_tree c k in
  let* x := rd (k_bodies k1 b) in
  let* l := array_remove c (kb_colliders x) in
  let k2 := set_kbody b (Some (with_cols l x)) k1 in
  let* y := rd (k_cols k2 c) in
  let* m := rd (k_shapes k2 (kc_shape y)) in
  let* m' := array_remove c m in
  let k3 := set_kcol c None (set_kshape (kc_shape y) (Some m') k2) in
  let* x3 := rd (k_bodies k3 b) in
  if kb_sim x3 then update_has_sim b k3 else Ok k3.

(** Body.cpp:204-213 removeAllColliders: the loop over a copy of the array. *)
Fixpoint remove_colliders (b : nat) (l : list nat) (k : scene) : res scene :=
  match l with
  | [] => Ok k
  | c :: l' => let* _ := rd (k_cols k c) in let* k1 := remove_collider b c k in remove_colliders b l' k1
  end.

(** PhysicsWorld.cpp:448-476 destroyRigidBody. *)
Definition destroy_kbody (b : nat) (k : scene) : res scene :=
  let* x := rd (k_bodies k b) in
  let* k1 := remove_colliders b (kb_colliders x) k in
  let k2 := set_kbody b None k1 in
  let* l := rd (k_worlds k2 (kb_world x)) in
  let* l' := array_remove b l in
  Ok (set_kworld (kb_world x) (Some l') k2).

(** PhysicsWorld.cpp:149-154: the loop of ~PhysicsWorld. *)
Fixpoint destroy_bodies (i : nat) (w : nat) (k : scene) : res scene :=
  match i with
  | O => Ok k
  | S i' =>
      let* l := rd (k_worlds k w) in
      let* b := rd (nth_error l i') in
      let* k1 := destroy_kbody b k in
      destroy_bodies i' w k1
  end.
(** PhysicsCommon.cpp:246-265 destroyPhysicsWorld, PhysicsWorld.cpp:131-165 ~PhysicsWorld with its
    assertions that nothing is left. *)
Definition destroy_kworld (w : nat) (k : scene) : res scene :=
  let* l := rd (k_worlds k w) in
  let* k1 := destroy_bodies (length l) w k in
  let* l1 := rd (k_worlds k1 w) in
  match l1 with [] => Ok (set_kworld w None k1) | _ => Ub end.

(** PhysicsCommon.cpp:289-314 destroySphereShape, and the other shapes alike.  A shape that is still
    used only gives an entry in the log. *)
Definition destroy_shape (s : nat) (k : scene) : res scene :=
  let* _ := rd (k_shapes k s) in Ok (set_kshape s None k).

(** CollisionShape.cpp:96-102 notifyColliderAboutChangedSize, called by the setters of the shapes:
    the loop. *)
Fixpoint notify_colliders (l : list nat) (k : scene) : res scene :=
  match l with
  | [] => Ok k
  | c :: l' =>
      let* y := rd (k_cols k c) in
      notify_colliders l' (set_kcol c (Some (with_changed true y)) k)
  end.
(** SphereShape.h:125-130 setRadius, and the other setters of sizes alike. *)
Definition resize_shape (s : nat) (k : scene) : res scene :=
  let* l := rd (k_shapes k s) in notify_colliders l k.

(** Collider.cpp:250-257 setIsTrigger and Collider.cpp:271-287 setIsSimulationCollider, which call each
    other; [fuel] bounds the depth of the calls. *)
Fixpoint set_trigger (fuel : nat) (c : nat) (v : bool) (k : scene) : res scene :=
  match fuel with
  | O => Fuel
  | S fuel' =>
      let* y := rd (k_cols k c) in
      let k1 := set_kcol c (Some (with_trigger v y)) k in
      let* y1 := rd (k_cols k1 c) in
      if v && kc_sim y1 then set_simulation fuel' c false k1 else Ok k1
  end
with set_simulation (fuel : nat) (c : nat) (v : bool) (k : scene) : res scene :=
  match fuel with
  | O => Fuel
  | S fuel' =>
      let* y := rd (k_cols k c) in
      let k1 := set_kcol c (Some (with_sim v y)) k in
      let* k2 :=
        if v then let* x := rd (k_bodies k1 (kc_body y)) in Ok (set_kbody (kc_body y) (Some (with_kbsim true x)) k1)
        else update_has_sim (kc_body y) k1 in
      let* y2 := rd (k_cols k2 c) in
      if v && kc_trigger y2 then set_trigger fuel' c false k2 else Ok k2
  end.

(** Body.cpp:247-291 setIsActive: the loop over the colliders. *)
Fixpoint move_colliders (v : bool) (l : list nat) (k : scene) : res scene :=
  match l with
  | [] => Ok k
  | c :: l' => let* k1 := (if v then enter_tree c k else leave_tree c k) in move_colliders v l' k1
  end.
Definition set_kactive (b : nat) (v : bool) (k : scene) : res scene :=
  let* x := rd (k_bodies k b) in
  if Bool.eqb (kb_active x) v then Ok k
  else move_colliders v (kb_colliders x) (set_kbody b (Some (with_kactive v x)) k).

(** PhysicsWorld.cpp:780-800 createIslands: the tests that a contact between the colliders [c1] and
    [c2] of the bodies [b1] and [b2] has to pass, seen from [b1], to be solved. *)
Definition solves_contact (c1 c2 : nat) (k : scene) : res bool :=
  let* y1 := rd (k_cols k c1) in
  let* y2 := rd (k_cols k c2) in
  if negb (kc_sim y1) || negb (kc_sim y2) then Ok false
  else
    let* x2 := rd (k_bodies k (kc_body y2)) in
    Ok (kb_sim x2).

(** The calls of the API. *)
Inductive kop : Type :=
| KWorld
| KShape
| KBody (w : nat)
| KAdd (b s : nat)
| KRemove (b c : nat)
| KDestroyBody (b : nat)
| KDestroyWorld (w : nat)
| KDestroyShape (s : nat)
| KResize (s : nat)
| KTrigger (c : nat) (v : bool)
| KSimulation (c : nat) (v : bool)
| KActive (b : nat) (v : bool).

Definition kstep (o : kop) (k : scene) : res scene :=
  match o with
  | KWorld => create_world k
  | KShape => create_shape k
  | KBody w => create_kbody w k
  | KAdd b s => add_collider b s k
  | KRemove b c => remove_collider b c k
  | KDestroyBody b => destroy_kbody b k
  | KDestroyWorld w => destroy_kworld w k
  | KDestroyShape s => destroy_shape s k
  | KResize s => resize_shape s k
  | KTrigger c v => set_trigger 2 c v k
  | KSimulation c v => set_simulation 2 c v k
  | KActive b v => set_kactive b v k
  end.

Fixpoint kruns (os : list kop) (k : scene) : res scene :=
  match os with [] => Ok k | o :: os' => let* k1 := kstep o k in kruns os' k1 end.

(** PhysicsCommon.cpp:42-53: nothing exists at the start. *)
Definition empty_scene : scene := mk_scene (fun _ => None) (fun _ => None) (fun _ => None) (fun _ => None) 0.
