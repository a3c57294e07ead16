(** One rigid body: its mass properties, velocities, forces and pose, and what every call of the API and every update does to them,
    in exact arithmetic.  The asserts are not modelled. *)
From Coq Require Import List.
From Verif Require Import VecModel.
Import ListNotations.
Local Open Scope R_scope.

(** include/reactphysics3d/components/RigidBodyComponents.h:48. *)
Inductive btype : Type := Static | Kinematic | Dynamic.
Definition btype_eqb (a b : btype) : bool :=
  match a, b with Static, Static | Kinematic, Kinematic | Dynamic, Dynamic => true | _, _ => false end.

(** A collider as its body sees it: CollisionShape::getVolume, Material::getMassDensity, CollisionShape::getLocalInertiaTensor,
    the local-to-body and the local-to-world transform (ColliderComponents.h). *)
Record collider : Type := Collider { c_volume : R; c_density : R; c_inertia : R -> vec3; c_local : transform; c_world : transform }.

(** RigidBodyComponents.h, TransformComponents.h and BodyComponents.h: type, mass and inverse, local inertia and inverse, world inverse
    inertia, local and world centre of mass, transform, velocities, external force and torque, dampings, gravity flag, lock factors,
    the sleeping, active and disabled flags, mConstrainedLinearVelocities, mConstrainedAngularVelocities, mSplitLinearVelocities,
    mSplitAngularVelocities, mConstrainedPositions, mConstrainedOrientations, colliders. *)
Record body : Type := Body {
  b_type : btype; b_mass : R; b_imass : R; b_inertia : vec3; b_iinertia : vec3; b_iworld : mat3; b_com : vec3; b_comw : vec3;
  b_tr : transform; b_v : vec3; b_w : vec3; b_force : vec3; b_torque : vec3; b_ldamp : R; b_adamp : R; b_grav : bool; b_llock
  : vec3; b_alock : vec3; b_sleeping : bool; b_active : bool; b_disabled : bool; b_cv : vec3; b_cw : vec3; b_sv : vec3; b_sw
  : vec3; b_cpos : vec3; b_crot : quat; b_cols : list collider
}.
(** Writing one component. *)
Definition set_type (x : btype) (b : body) : body := Body x (b_mass b) (b_imass b) (b_inertia b) (b_iinertia b) (b_iworld b) (b_com b)
  (b_comw b) (b_tr b) (b_v b) (b_w b) (b_force b) (b_torque b) (b_ldamp b) (b_adamp b) (b_grav b) (b_llock b) (b_alock b) (b_sleeping
  b) (b_active b) (b_disabled b) (b_cv b) (b_cw b) (b_sv b) (b_sw b) (b_cpos b) (b_crot b) (b_cols b).
Definition set_mass (x : R) (b : body) : body := Body (b_type b) x (b_imass b) (b_inertia b) (b_iinertia b) (b_iworld b) (b_com b)
  (b_comw b) (b_tr b) (b_v b) (b_w b) (b_force b) (b_torque b) (b_ldamp b) (b_adamp b) (b_grav b) (b_llock b) (b_alock b) (b_sleeping
  b) (b_active b) (b_disabled b) (b_cv b) (b_cw b) (b_sv b) (b_sw b) (b_cpos b) (b_crot b) (b_cols b).
Definition set_imass (x : R) (b : body) : body := Body (b_type b) (b_mass b) x (b_inertia b) (b_iinertia b) (b_iworld b) (b_com b)
  (b_comw b) (b_tr b) (b_v b) (b_w b) (b_force b) (b_torque b) (b_ldamp b) (b_adamp b) (b_grav b) (b_llock b) (b_alock b) (b_sleeping
  b) (b_active b) (b_disabled b) (b_cv b) (b_cw b) (b_sv b) (b_sw b) (b_cpos b) (b_crot b) (b_cols b).
Definition set_inertia (x : vec3) (b : body) : body := Body (b_type b) (b_mass b) (b_imass b) x (b_iinertia b) (b_iworld b) (b_com b)
  (b_comw b) (b_tr b) (b_v b) (b_w b) (b_force b) (b_torque b) (b_ldamp b) (b_adamp b) (b_grav b) (b_llock b) (b_alock b) (b_sleeping
  b) (b_active b) (b_disabled b) (b_cv b) (b_cw b) (b_sv b) (b_sw b) (b_cpos b) (b_crot b) (b_cols b).
Definition set_iinertia (x : vec3) (b : body) : body := Body (b_type b) (b_mass b) (b_imass b) (b_inertia b) x (b_iworld b) (b_com b)
  (b_comw b) (b_tr b) (b_v b) (b_w b) (b_force b) (b_torque b) (b_ldamp b) (b_adamp b) (b_grav b) (b_llock b) (b_alock b) (b_sleeping
  b) (b_active b) (b_disabled b) (b_cv b) (b_cw b) (b_sv b) (b_sw b) (b_cpos b) (b_crot b) (b_cols b).
Definition set_iworld (x : mat3) (b : body) : body := Body (b_type b) (b_mass b) (b_imass b) (b_inertia b) (b_iinertia b) x (b_com b)
  (b_comw b) (b_tr b) (b_v b) (b_w b) (b_force b) (b_torque b) (b_ldamp b) (b_adamp b) (b_grav b) (b_llock b) (b_alock b) (b_sleeping
  b) (b_active b) (b_disabled b) (b_cv b) (b_cw b) (b_sv b) (b_sw b) (b_cpos b) (b_crot b) (b_cols b).
Definition set_com (x : vec3) (b : body) : body := Body (b_type b) (b_mass b) (b_imass b) (b_inertia b) (b_iinertia b) (b_iworld b) x
  (b_comw b) (b_tr b) (b_v b) (b_w b) (b_force b) (b_torque b) (b_ldamp b) (b_adamp b) (b_grav b) (b_llock b) (b_alock b) (b_sleeping
  b) (b_active b) (b_disabled b) (b_cv b) (b_cw b) (b_sv b) (b_sw b) (b_cpos b) (b_crot b) (b_cols b).
Definition set_comw (x : vec3) (b : body) : body := Body (b_type b) (b_mass b) (b_imass b) (b_inertia b) (b_iinertia b) (b_iworld b)
  (b_com b) x (b_tr b) (b_v b) (b_w b) (b_force b) (b_torque b) (b_ldamp b) (b_adamp b) (b_grav b) (b_llock b) (b_alock b) (b_sleeping
  b) (b_active b) (b_disabled b) (b_cv b) (b_cw b) (b_sv b) (b_sw b) (b_cpos b) (b_crot b) (b_cols b).
Definition set_tr (x : transform) (b : body) : body := Body (b_type b) (b_mass b) (b_imass b) (b_inertia b) (b_iinertia b) (b_iworld b)
  (b_com b) (b_comw b) x (b_v b) (b_w b) (b_force b) (b_torque b) (b_ldamp b) (b_adamp b) (b_grav b) (b_llock b) (b_alock b)
  (b_sleeping b) (b_active b) (b_disabled b) (b_cv b) (b_cw b) (b_sv b) (b_sw b) (b_cpos b) (b_crot b) (b_cols b).
Definition set_v (x : vec3) (b : body) : body := Body (b_type b) (b_mass b) (b_imass b) (b_inertia b) (b_iinertia b) (b_iworld b)
  (b_com b) (b_comw b) (b_tr b) x (b_w b) (b_force b) (b_torque b) (b_ldamp b) (b_adamp b) (b_grav b) (b_llock b) (b_alock b)
  (b_sleeping b) (b_active b) (b_disabled b) (b_cv b) (b_cw b) (b_sv b) (b_sw b) (b_cpos b) (b_crot b) (b_cols b).
Definition set_w (x : vec3) (b : body) : body := Body (b_type b) (b_mass b) (b_imass b) (b_inertia b) (b_iinertia b) (b_iworld b)
  (b_com b) (b_comw b) (b_tr b) (b_v b) x (b_force b) (b_torque b) (b_ldamp b) (b_adamp b) (b_grav b) (b_llock b) (b_alock b)
  (b_sleeping b) (b_active b) (b_disabled b) (b_cv b) (b_cw b) (b_sv b) (b_sw b) (b_cpos b) (b_crot b) (b_cols b).
Definition set_force (x : vec3) (b : body) : body := Body (b_type b) (b_mass b) (b_imass b) (b_inertia b) (b_iinertia b) (b_iworld b)
  (b_com b) (b_comw b) (b_tr b) (b_v b) (b_w b) x (b_torque b) (b_ldamp b) (b_adamp b) (b_grav b) (b_llock b) (b_alock b) (b_sleeping
  b) (b_active b) (b_disabled b) (b_cv b) (b_cw b) (b_sv b) (b_sw b) (b_cpos b) (b_crot b) (b_cols b).
Definition set_torque (x : vec3) (b : body) : body := Body (b_type b) (b_mass b) (b_imass b) (b_inertia b) (b_iinertia b) (b_iworld b)
  (b_com b) (b_comw b) (b_tr b) (b_v b) (b_w b) (b_force b) x (b_ldamp b) (b_adamp b) (b_grav b) (b_llock b) (b_alock b) (b_sleeping b)
  (b_active b) (b_disabled b) (b_cv b) (b_cw b) (b_sv b) (b_sw b) (b_cpos b) (b_crot b) (b_cols b).
Definition set_ldamp (x : R) (b : body) : body := Body (b_type b) (b_mass b) (b_imass b) (b_inertia b) (b_iinertia b) (b_iworld b)
  (b_com b) (b_comw b) (b_tr b) (b_v b) (b_w b) (b_force b) (b_torque b) x (b_adamp b) (b_grav b) (b_llock b) (b_alock b) (b_sleeping
  b) (b_active b) (b_disabled b) (b_cv b) (b_cw b) (b_sv b) (b_sw b) (b_cpos b) (b_crot b) (b_cols b).
Definition set_adamp (x : R) (b : body) : body := Body (b_type b) (b_mass b) (b_imass b) (b_inertia b) (b_iinertia b) (b_iworld b)
  (b_com b) (b_comw b) (b_tr b) (b_v b) (b_w b) (b_force b) (b_torque b) (b_ldamp b) x (b_grav b) (b_llock b) (b_alock b) (b_sleeping
  b) (b_active b) (b_disabled b) (b_cv b) (b_cw b) (b_sv b) (b_sw b) (b_cpos b) (b_crot b) (b_cols b).
Definition set_grav (x : bool) (b : body) : body := Body (b_type b) (b_mass b) (b_imass b) (b_inertia b) (b_iinertia b) (b_iworld b)
  (b_com b) (b_comw b) (b_tr b) (b_v b) (b_w b) (b_force b) (b_torque b) (b_ldamp b) (b_adamp b) x (b_llock b) (b_alock b) (b_sleeping
  b) (b_active b) (b_disabled b) (b_cv b) (b_cw b) (b_sv b) (b_sw b) (b_cpos b) (b_crot b) (b_cols b).
Definition set_llock (x : vec3) (b : body) : body := Body (b_type b) (b_mass b) (b_imass b) (b_inertia b) (b_iinertia b) (b_iworld b)
  (b_com b) (b_comw b) (b_tr b) (b_v b) (b_w b) (b_force b) (b_torque b) (b_ldamp b) (b_adamp b) (b_grav b) x (b_alock b) (b_sleeping
  b) (b_active b) (b_disabled b) (b_cv b) (b_cw b) (b_sv b) (b_sw b) (b_cpos b) (b_crot b) (b_cols b).
Definition set_alock (x : vec3) (b : body) : body := Body (b_type b) (b_mass b) (b_imass b) (b_inertia b) (b_iinertia b) (b_iworld b)
  (b_com b) (b_comw b) (b_tr b) (b_v b) (b_w b) (b_force b) (b_torque b) (b_ldamp b) (b_adamp b) (b_grav b) (b_llock b) x (b_sleeping
  b) (b_active b) (b_disabled b) (b_cv b) (b_cw b) (b_sv b) (b_sw b) (b_cpos b) (b_crot b) (b_cols b).
Definition set_sleeping (x : bool) (b : body) : body := Body (b_type b) (b_mass b) (b_imass b) (b_inertia b) (b_iinertia b) (b_iworld
  b) (b_com b) (b_comw b) (b_tr b) (b_v b) (b_w b) (b_force b) (b_torque b) (b_ldamp b) (b_adamp b) (b_grav b) (b_llock b) (b_alock b)
  x (b_active b) (b_disabled b) (b_cv b) (b_cw b) (b_sv b) (b_sw b) (b_cpos b) (b_crot b) (b_cols b).
Definition set_active (x : bool) (b : body) : body := Body (b_type b) (b_mass b) (b_imass b) (b_inertia b) (b_iinertia b) (b_iworld b)
  (b_com b) (b_comw b) (b_tr b) (b_v b) (b_w b) (b_force b) (b_torque b) (b_ldamp b) (b_adamp b) (b_grav b) (b_llock b) (b_alock b)
  (b_sleeping b) x (b_disabled b) (b_cv b) (b_cw b) (b_sv b) (b_sw b) (b_cpos b) (b_crot b) (b_cols b).
Definition set_disabled (x : bool) (b : body) : body := Body (b_type b) (b_mass b) (b_imass b) (b_inertia b) (b_iinertia b) (b_iworld
  b) (b_com b) (b_comw b) (b_tr b) (b_v b) (b_w b) (b_force b) (b_torque b) (b_ldamp b) (b_adamp b) (b_grav b) (b_llock b) (b_alock b)
  (b_sleeping b) (b_active b) x (b_cv b) (b_cw b) (b_sv b) (b_sw b) (b_cpos b) (b_crot b) (b_cols b).
Definition set_cv (x : vec3) (b : body) : body := Body (b_type b) (b_mass b) (b_imass b) (b_inertia b) (b_iinertia b) (b_iworld b)
  (b_com b) (b_comw b) (b_tr b) (b_v b) (b_w b) (b_force b) (b_torque b) (b_ldamp b) (b_adamp b) (b_grav b) (b_llock b) (b_alock b)
  (b_sleeping b) (b_active b) (b_disabled b) x (b_cw b) (b_sv b) (b_sw b) (b_cpos b) (b_crot b) (b_cols b).
Definition set_cw (x : vec3) (b : body) : body := Body (b_type b) (b_mass b) (b_imass b) (b_inertia b) (b_iinertia b) (b_iworld b)
  (b_com b) (b_comw b) (b_tr b) (b_v b) (b_w b) (b_force b) (b_torque b) (b_ldamp b) (b_adamp b) (b_grav b) (b_llock b) (b_alock b)
  (b_sleeping b) (b_active b) (b_disabled b) (b_cv b) x (b_sv b) (b_sw b) (b_cpos b) (b_crot b) (b_cols b).
Definition set_sv (x : vec3) (b : body) : body := Body (b_type b) (b_mass b) (b_imass b) (b_inertia b) (b_iinertia b) (b_iworld b)
  (b_com b) (b_comw b) (b_tr b) (b_v b) (b_w b) (b_force b) (b_torque b) (b_ldamp b) (b_adamp b) (b_grav b) (b_llock b) (b_alock b)
  (b_sleeping b) (b_active b) (b_disabled b) (b_cv b) (b_cw b) x (b_sw b) (b_cpos b) (b_crot b) (b_cols b).
Definition set_sw (x : vec3) (b : body) : body := Body (b_type b) (b_mass b) (b_imass b) (b_inertia b) (b_iinertia b) (b_iworld b)
  (b_com b) (b_comw b) (b_tr b) (b_v b) (b_w b) (b_force b) (b_torque b) (b_ldamp b) (b_adamp b) (b_grav b) (b_llock b) (b_alock b)
  (b_sleeping b) (b_active b) (b_disabled b) (b_cv b) (b_cw b) (b_sv b) x (b_cpos b) (b_crot b) (b_cols b).
Definition set_cpos (x : vec3) (b : body) : body := Body (b_type b) (b_mass b) (b_imass b) (b_inertia b) (b_iinertia b) (b_iworld b)
  (b_com b) (b_comw b) (b_tr b) (b_v b) (b_w b) (b_force b) (b_torque b) (b_ldamp b) (b_adamp b) (b_grav b) (b_llock b) (b_alock b)
  (b_sleeping b) (b_active b) (b_disabled b) (b_cv b) (b_cw b) (b_sv b) (b_sw b) x (b_crot b) (b_cols b).
Definition set_crot (x : quat) (b : body) : body := Body (b_type b) (b_mass b) (b_imass b) (b_inertia b) (b_iinertia b) (b_iworld b)
  (b_com b) (b_comw b) (b_tr b) (b_v b) (b_w b) (b_force b) (b_torque b) (b_ldamp b) (b_adamp b) (b_grav b) (b_llock b) (b_alock b)
  (b_sleeping b) (b_active b) (b_disabled b) (b_cv b) (b_cw b) (b_sv b) (b_sw b) (b_cpos b) x (b_cols b).
Definition set_cols (x : list collider) (b : body) : body := Body (b_type b) (b_mass b) (b_imass b) (b_inertia b) (b_iinertia b)
  (b_iworld b) (b_com b) (b_comw b) (b_tr b) (b_v b) (b_w b) (b_force b) (b_torque b) (b_ldamp b) (b_adamp b) (b_grav b) (b_llock b)
  (b_alock b) (b_sleeping b) (b_active b) (b_disabled b) (b_cv b) (b_cw b) (b_sv b) (b_sw b) (b_cpos b) (b_crot b) x.

(** PhysicsWorld.cpp:401-442 createRigidBody and RigidBodyComponents.cpp:207-252 addComponent. *)
Definition create (t : transform) : body :=
  Body Dynamic 1 (1 / 1) (V3 1 1 1) (V3 1 1 1) mat_id vzero (t_pos t) t vzero vzero vzero vzero 0 0 true (V3 1 1 1) (V3 1 1 1)
       false true false vzero vzero vzero vzero vzero quat_id [].

Definition is_dynamic (b : body) : bool := btype_eqb (b_type b) Dynamic.
Definition is_static (b : body) : bool := btype_eqb (b_type b) Static.
(** RigidBody.cpp:96-101, 529-534, 602-607, 635-640. *)
Definition inverse_mass (m : R) : R := if rlt 0 m then 1 / m else 0.
(** RigidBody.cpp:105-107, 264-266, 489-491, 586-588. *)
Definition inverse_or_zero (x : R) : R := if req x 0 then 0 else 1 / x.
Definition inverse_inertia (i : vec3) : vec3 := V3 (inverse_or_zero (vx i)) (inverse_or_zero (vy i)) (inverse_or_zero (vz i)).

(** RigidBody.cpp:1006-1057 setIsSleeping with PhysicsWorld.cpp:168-186 setBodyDisabled; the sleep time and the overlapping pairs
    are left out. *)
Definition set_is_sleeping (s : bool) (b : body) : body :=
  if Bool.eqb (b_sleeping b) s then b
  else if is_static b then b
  else if negb (b_active b) then b
  else
    let b := set_disabled s (set_sleeping s b) in
    if s then set_torque vzero (set_force vzero (set_w vzero (set_v vzero b))) else b.

(** RigidBody.cpp:66-130 setType. *)
Definition set_type_of (t : btype) (b : body) : body :=
  if btype_eqb (b_type b) t then b
  else
    let b := set_type t b in
    let b := if btype_eqb t Static
             then set_crot (t_rot (b_tr b)) (set_cpos (t_pos (b_tr b)) (set_w vzero (set_v vzero b))) else b in
    let b := if btype_eqb t Dynamic
             then set_iinertia (inverse_inertia (b_inertia b)) (set_imass (inverse_mass (b_mass b)) b)
             else set_iworld mat_zero (set_iinertia vzero (set_imass 0 b)) in
    let b := set_disabled (btype_eqb t Static) b in
    let b := set_is_sleeping false b in
    set_torque vzero (set_force vzero b).

(** RigidBody.cpp:619-646 setMass. *)
Definition set_mass_of (m : R) (b : body) : body :=
  if rlt m 0 then b
  else let b := set_mass m b in if is_dynamic b then set_imass (inverse_mass m) b else b.
(** RigidBody.cpp:255-272 setLocalInertiaTensor. *)
Definition set_inertia_of (i : vec3) (b : body) : body :=
  let b := set_inertia i b in if is_dynamic b then set_iinertia (inverse_inertia i) b else b.

(** The change of the linear velocity when the centre of mass moves from [old] to its present place: RigidBody.cpp:343-347,
    380-383, 566-569, 846-850. *)
Definition shift_velocity (old : vec3) (b : body) : body :=
  set_v (vadd (b_v b) (vcross (b_w b) (vsub (b_comw b) old))) b.
(** RigidBody.cpp:334-351 setLocalCenterOfMass. *)
Definition set_com_of (c : vec3) (b : body) : body :=
  shift_velocity (b_comw b) (set_comw (tr_point (b_tr b) c) (set_com c b)).

(** RigidBody.cpp:401-404, 433-435, 513-516. *)
Definition collider_mass (c : collider) : R := c_volume c * c_density c.
(** RigidBody.cpp:390-415 computeCenterOfMass. *)
Definition center_of_mass (l : list collider) : vec3 :=
  let '(m, s) := fold_left (fun '(m, s) c => (m + collider_mass c, vadd s (vscale (collider_mass c) (t_pos (c_local c))))) l (0, vzero) in
  if rlt 0 m then vdiv s m else s.
(** RigidBody.cpp:442-449: the tensor of a collider in the axes of the body. *)
Definition row_scale (d : vec3) (m : mat3) : mat3 := M3 (vscale (vx d) (row0 m)) (vscale (vy d) (row1 m)) (vscale (vz d) (row2 m)).
Definition rotated_tensor (m : mat3) (d : vec3) : mat3 := mat_mul m (row_scale d (mat_transpose m)).
(** RigidBody.cpp:453-462: the shift to another point. *)
Definition offset_tensor (m : R) (o : vec3) : mat3 :=
  let s := vlen2 o in
  mat_scale m (M3 (vadd (V3 s 0 0) (vscale (- vx o) o)) (vadd (V3 0 s 0) (vscale (- vy o) o)) (vadd (V3 0 0 s) (vscale (- vz o) o))).
Definition collider_tensor (com : vec3) (c : collider) : mat3 :=
  mat_add (rotated_tensor (quat_matrix (t_rot (c_local c))) (c_inertia c (collider_mass c)))
          (offset_tensor (collider_mass c) (vsub (t_pos (c_local c)) com)).
(** RigidBody.cpp:418-469 computeMassAndInertiaTensorLocal. *)
Definition mass_and_inertia (com : vec3) (l : list collider) : R * vec3 :=
  let '(m, t) := fold_left (fun '(m, t) c => (m + collider_mass c, mat_add t (collider_tensor com c))) l (0, mat_zero) in
  (m, V3 (m00 t) (m11 t) (m22 t)).
(** RigidBody.cpp:505-519. *)
Definition total_mass (l : list collider) : R := fold_left (fun m c => m + collider_mass c) l 0.

(** RigidBody.cpp:367-387 updateLocalCenterOfMassFromColliders, 475-497 updateLocalInertiaTensorFromColliders,
    503-539 updateMassFromColliders, 548-612 updateMassPropertiesFromColliders. *)
Definition update_com (b : body) : body := set_com_of (center_of_mass (b_cols b)) b.
Definition update_inertia (b : body) : body := set_inertia_of (snd (mass_and_inertia (b_com b) (b_cols b))) b.
Definition set_mass_unchecked (m : R) (b : body) : body :=
  let b := set_mass m b in if is_dynamic b then set_imass (inverse_mass m) b else b.
Definition update_mass (b : body) : body := set_mass_unchecked (total_mass (b_cols b)) b.
Definition update_mass_properties (b : body) : body :=
  let old := b_comw b in
  let c := center_of_mass (b_cols b) in
  let b := set_comw (tr_point (b_tr b) c) (set_com c b) in
  let b := if is_dynamic b then shift_velocity old b else b in
  let '(m, i) := mass_and_inertia (b_com b) (b_cols b) in
  set_mass_unchecked m (set_inertia_of i b).

(** Body.cpp:226-241 updateBroadPhaseState, DynamicsSystem.cpp:102-109: the world transforms of the colliders. *)
Definition place_colliders (b : body) : body :=
  set_cols (map (fun c => Collider (c_volume c) (c_density c) (c_inertia c) (c_local c) (tr_mul (b_tr b) (c_local c))) (b_cols b)) b.
(** RigidBody.cpp:837-862 setTransform and Body.cpp:397-407. *)
Definition set_transform (t : transform) (b : body) : body :=
  let old := b_comw b in
  let b := set_comw (tr_point t (b_com b)) b in
  let b := shift_velocity old b in
  let b := if is_static b then set_crot (t_rot t) (set_cpos (t_pos t) b) else b in
  let b := set_is_sleeping false b in
  place_colliders (set_tr t b).

(** RigidBody.cpp:794-830 setLinearVelocity, setAngularVelocity. *)
Definition set_linear_velocity (v : vec3) (b : body) : body :=
  if is_static b then b
  else let b := set_v v b in if rlt 0 (vlen2 v) then set_is_sleeping false b else b.
Definition set_angular_velocity (w : vec3) (b : body) : body :=
  if is_static b then b
  else let b := set_w w b in if rlt 0 (vlen2 w) then set_is_sleeping false b else b.
(** RigidBody.cpp:753-788 setLinearDamping, setAngularDamping. *)
Definition set_linear_damping (d : R) (b : body) : body := if rle 0 d then set_ldamp d b else b.
Definition set_angular_damping (d : R) (b : body) : body := if rle 0 d then set_adamp d b else b.

(** RigidBody.cpp:176-178, 227-229, 304-306, 944-946. *)
Definition awake (b : body) : body := if b_sleeping b then set_is_sleeping false b else b.
(** RigidBody.cpp:298-311 applyWorldForceAtCenterOfMass, 282-288 applyLocalForceAtCenterOfMass. *)
Definition world_force_at_com (f : vec3) (b : body) : body :=
  if is_dynamic b then let b := awake b in set_force (vadd (b_force b) f) b else b.
Definition local_force_at_com (f : vec3) (b : body) : body := world_force_at_com (quat_vec (t_rot (b_tr b)) f) b.
(** RigidBody.cpp:221-239 applyWorldForceAtWorldPosition, 202-208 applyLocalForceAtWorldPosition. *)
Definition world_force_at_world (f p : vec3) (b : body) : body :=
  if is_dynamic b then
    let b := awake b in
    let b := set_force (vadd (b_force b) f) b in
    set_torque (vadd (b_torque b) (vcross (vsub p (b_comw b)) f)) b
  else b.
Definition local_force_at_world (f p : vec3) (b : body) : body := world_force_at_world (quat_vec (t_rot (b_tr b)) f) p b.
(** RigidBody.cpp:170-189 applyWorldForceAtLocalPosition, 151-157 applyLocalForceAtLocalPosition. *)
Definition world_force_at_local (f p : vec3) (b : body) : body :=
  if is_dynamic b then
    let b := awake b in
    let b := set_force (vadd (b_force b) f) b in
    set_torque (vadd (b_torque b) (vcross (vsub (tr_point (b_tr b) p) (b_comw b)) f)) b
  else b.
Definition local_force_at_local (f p : vec3) (b : body) : body := world_force_at_local (quat_vec (t_rot (b_tr b)) f) p b.
(** RigidBody.cpp:938-951 applyWorldTorque, 961-967 applyLocalTorque. *)
Definition world_torque (t : vec3) (b : body) : body :=
  if is_dynamic b then let b := awake b in set_torque (vadd (b_torque b) t) b else b.
Definition local_torque (t : vec3) (b : body) : body := world_torque (quat_vec (t_rot (b_tr b)) t) b.
(** RigidBody.cpp:970-987 resetForce, resetTorque. *)
Definition reset_force (b : body) : body := if is_dynamic b then set_force vzero b else b.
Definition reset_torque (b : body) : body := if is_dynamic b then set_torque vzero b else b.

(** RigidBody.cpp:661-721 addCollider, 728-735 and Body.cpp:170-206 removeCollider, Collider.cpp:106-124 setLocalToBodyTransform and
    219-243 setMaterial (its density): the list of colliders of the body. *)
Definition add_collider (vol dens : R) (i : R -> vec3) (t : transform) (b : body) : body :=
  set_cols (b_cols b ++ [Collider vol dens i t (tr_mul (b_tr b) t)]) b.
Definition remove_collider (k : nat) (b : body) : body := set_cols (firstn k (b_cols b) ++ skipn (S k) (b_cols b)) b.
Definition change_collider (k : nat) (f : collider -> collider) (b : body) : body :=
  set_cols (firstn k (b_cols b) ++ match skipn k (b_cols b) with c :: l => f c :: l | [] => [] end) b.
Definition move_collider (k : nat) (t : transform) (b : body) : body :=
  set_is_sleeping false
    (change_collider k (fun c => Collider (c_volume c) (c_density c) (c_inertia c) t (tr_mul (b_tr b) t)) b).
Definition set_density (k : nat) (d : R) (b : body) : body :=
  change_collider k (fun c => Collider (c_volume c) d (c_inertia c) (c_local c) (c_world c)) b.

(** RigidBody.cpp:1185-1193 setIsActive and Body.cpp:247-291; the broad phase is left out. *)
Definition set_is_active (a : bool) (b : body) : body :=
  if Bool.eqb (b_active b) a then b else set_active a (set_is_sleeping (negb a) b).

(** RigidBody.h:246-261 computeWorldInertiaTensorInverse. *)
Definition world_inverse (m : mat3) (i : vec3) : mat3 :=
  mat_mul m (mk_mat (m00 m * vx i) (m10 m * vx i) (m20 m * vx i)
                    (m01 m * vy i) (m11 m * vy i) (m21 m * vy i)
                    (m02 m * vz i) (m12 m * vz i) (m22 m * vz i)).
(** PhysicsWorld.cpp:310-318 updateBodiesInverseWorldInertiaTensors; only enabled bodies. *)
Definition update_iworld (b : body) : body :=
  if b_disabled b then b else set_iworld (world_inverse (quat_matrix (t_rot (b_tr b))) (b_iinertia b)) b.

(** DynamicsSystem.cpp:117-183 integrateRigidBodiesVelocities; [g] is the gravity of the world if it is enabled. *)
Definition integrate_velocities (dt : R) (g : option vec3) (b : body) : body :=
  if b_disabled b then b
  else
    let b := set_sw vzero (set_sv vzero b) in
    let b := set_cv (vadd (b_v b) (vmul (vscale (dt * b_imass b) (b_llock b)) (b_force b))) b in
    let b := set_cw (vadd (b_w b) (vmul (vscale dt (b_alock b)) (mat_vec (b_iworld b) (b_torque b)))) b in
    let b := match g with
             | Some g => if b_grav b
                         then set_cv (vadd (b_cv b) (vmul (vscale (b_mass b) (vscale (dt * b_imass b) (b_llock b))) g)) b else b
             | None => b
             end in
    let b := set_cv (vscale (1 / (1 + b_ldamp b * dt)) (b_cv b)) b in
    set_cw (vscale (1 / (1 + b_adamp b * dt)) (b_cw b)) b.

(** What the contact and joint solvers do to one body.  They only ever add the inverse mass times the lock factors times some linear
    impulse to the linear velocities, and the lock factors times the world inverse inertia times some angular impulse to the angular
    ones (ContactSolverSystem.cpp:350-470, 540-745, Solve*JointSystem.cpp: the assignments to v1, w1, v2, w2); the impulses are inputs
    of the model.  Positions are corrected in the same way with the inertia of the corrected orientation
    (SolveBallAndSocketJointSystem.cpp:317-450 and the other joints). *)
Record impulses : Type := Impulses { i_p : vec3; i_l : vec3; i_sp : vec3; i_sl : vec3; i_corr : list (vec3 * vec3) }.
Definition no_impulses : impulses := Impulses vzero vzero vzero vzero [].
Definition solve_velocities (i : impulses) (b : body) : body :=
  let lin := fun v p => vadd v (vmul (vscale (b_imass b) (b_llock b)) p) in
  let ang := fun w l => vadd w (vmul (b_alock b) (mat_vec (b_iworld b) l)) in
  set_sw (ang (b_sw b) (i_sl i)) (set_sv (lin (b_sv b) (i_sp i)) (set_cw (ang (b_cw b) (i_l i)) (set_cv (lin (b_cv b) (i_p i)) b))).
(** DynamicsSystem.cpp:68-69: an orientation after turning with angular velocity [w] during [dt], to first order. *)
Definition turn (w : vec3) (dt : R) (q : quat) : quat :=
  quat_add q (quat_scale dt (quat_scale (/ 2) (quat_mul (Q4 (vx w) (vy w) (vz w) 0) q))).
Definition correct_position (b : body) (c : vec3 * vec3) : body :=
  let w := vmul (b_alock b) (mat_vec (world_inverse (quat_matrix (b_crot b)) (b_iinertia b)) (snd c)) in
  set_crot (quat_normalize (turn w 1 (b_crot b)))
    (set_cpos (vadd (b_cpos b) (vmul (vscale (b_imass b) (b_llock b)) (fst c))) b).

(** DynamicsSystem.cpp:44-71 integrateRigidBodiesPositions; [split] is isSplitImpulseActive. *)
Definition integrate_positions (dt : R) (split : bool) (b : body) : body :=
  if b_disabled b then b
  else
    let k := if split then 1 else 0 in
    let v := vadd (b_cv b) (vscale k (b_sv b)) in
    let w := vadd (b_cw b) (vscale k (b_sw b)) in
    set_crot (turn w dt (t_rot (b_tr b))) (set_cpos (vadd (b_comw b) (vscale dt v)) b).
(** DynamicsSystem.cpp:74-110 updateBodiesState. *)
Definition update_state (b : body) : body :=
  if b_disabled b then b
  else
    let b := set_comw (b_cpos b) (set_w (b_cw b) (set_v (b_cv b) b)) in
    let q := quat_normalize (b_crot b) in
    let b := set_tr (Tr (vsub (b_comw b) (quat_vec q (b_com b))) q) b in
    place_colliders b.
(** PhysicsWorld.cpp:239-307 update: one time step [dt] with the gravity of the world, the flag of the split impulses, the impulses of
    the solvers and whether the island of the body falls asleep (PhysicsWorld.cpp:868-926).  A wake-up by createIslands is a call of
    setIsSleeping(false) before. *)
Record step_in : Type := StepIn { s_dt : R; s_g : option vec3; s_split : bool; s_imp : impulses; s_sleep : bool }.
Definition step (s : step_in) (b : body) : body :=
  let b := update_iworld b in
  let b := integrate_velocities (s_dt s) (s_g s) b in
  let b := solve_velocities (s_imp s) b in
  let b := integrate_positions (s_dt s) (s_split s) b in
  let b := fold_left correct_position (i_corr (s_imp s)) b in
  let b := update_state b in
  let b := if s_sleep s then set_is_sleeping true b else b in
  set_torque vzero (set_force vzero b).

(** The calls of the API of a rigid body that touch this state, and an update of the world. *)
Inductive bop : Type :=
| SetType (t : btype) | SetMass (m : R) | SetInertia (i : vec3) | SetCom (c : vec3)
| UpdateCom | UpdateInertia | UpdateMass | UpdateMassProperties
| SetTransform (t : transform) | SetLinearVelocity (v : vec3) | SetAngularVelocity (w : vec3)
| SetLinearDamping (d : R) | SetAngularDamping (d : R) | EnableGravity (g : bool) | SetLinearLock (l : vec3) | SetAngularLock (l : vec3)
| WorldForce (f : vec3) | LocalForce (f : vec3) | WorldForceAtWorld (f p : vec3) | LocalForceAtWorld (f p : vec3)
| WorldForceAtLocal (f p : vec3) | LocalForceAtLocal (f p : vec3) | WorldTorque (t : vec3) | LocalTorque (t : vec3)
| ResetForce | ResetTorque
| AddCollider (vol dens : R) (i : R -> vec3) (t : transform) | RemoveCollider (k : nat) | MoveCollider (k : nat) (t : transform)
| SetDensity (k : nat) (d : R) | SetIsActive (a : bool) | SetIsSleeping (s : bool) | Update (s : step_in).
Definition apply (o : bop) (b : body) : body :=
  match o with
  | SetType t => set_type_of t b | SetMass m => set_mass_of m b | SetInertia i => set_inertia_of i b | SetCom c => set_com_of c b
  | UpdateCom => update_com b | UpdateInertia => update_inertia b | UpdateMass => update_mass b
  | UpdateMassProperties => update_mass_properties b
  | SetTransform t => set_transform t b | SetLinearVelocity v => set_linear_velocity v b | SetAngularVelocity w => set_angular_velocity w b
  | SetLinearDamping d => set_linear_damping d b | SetAngularDamping d => set_angular_damping d b
  | EnableGravity g => set_grav g b | SetLinearLock l => set_llock l b | SetAngularLock l => set_alock l b
  | WorldForce f => world_force_at_com f b | LocalForce f => local_force_at_com f b
  | WorldForceAtWorld f p => world_force_at_world f p b | LocalForceAtWorld f p => local_force_at_world f p b
  | WorldForceAtLocal f p => world_force_at_local f p b | LocalForceAtLocal f p => local_force_at_local f p b
  | WorldTorque t => world_torque t b | LocalTorque t => local_torque t b
  | ResetForce => reset_force b | ResetTorque => reset_torque b
  | AddCollider vol dens i t => add_collider vol dens i t b | RemoveCollider k => remove_collider k b
  | MoveCollider k t => move_collider k t b | SetDensity k d => set_density k d b
  | SetIsActive a => set_is_active a b | SetIsSleeping s => set_is_sleeping s b | Update s => step s b
  end.
Definition run (l : list bop) (b : body) : body := fold_left (fun b o => apply o b) l b.
Definition after (t : transform) (l : list bop) : body := run l (create t).
