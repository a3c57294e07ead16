(** The sphere, box, capsule, triangle and convex mesh shapes, in exact arithmetic.  [eps] stands for
    MACHINE_EPSILON and [big] for DECIMAL_LARGEST. *)
From Coq Require Import List.
From Verif Require Import VecModel GeomModel.
Import ListNotations.
Local Open Scope R_scope.

(** include/reactphysics3d/mathematics/Ray.h:41-63. *)
Record ray : Type := Ray { ray_p1 : vec3; ray_p2 : vec3; ray_max : R }.
(** include/reactphysics3d/collision/RaycastInfo.h: the fields set by the shapes (without body, collider, indices). *)
Record hit : Type := Hit { hit_fraction : R; hit_point : vec3; hit_normal : vec3 }.
(** include/reactphysics3d/collision/shapes/AABB.h. *)
Record box3 : Type := Box3 { bmin : vec3; bmax : vec3 }.

(** Vector3.h operator[]. *)
Definition comp (v : vec3) (i : nat) : R := match i with 0%nat => vx v | 1%nat => vy v | _ => vz v end.
(** A vector with the number [k] at the place [i] and zeros elsewhere (BoxShape.cpp:84-86). *)
Definition axis (i : nat) (k : R) : vec3 :=
  match i with 0%nat => V3 k 0 0 | 1%nat => V3 0 k 0 | _ => V3 0 0 k end.

(** ** Bounding boxes *)

(** SphereShape.h:160-164. *)
Definition sphere_bounds (r : R) : box3 := Box3 (V3 (- r) (- r) (- r)) (V3 r r r).
(** BoxShape.cpp:149-151. *)
Definition box_bounds (h : vec3) : box3 := Box3 (vneg h) h.
(** CapsuleShape.cpp:90-94; [hh] is the half height. *)
Definition capsule_bounds (hh r : R) : box3 := Box3 (V3 (- r) (- hh - r) (- r)) (V3 r (hh + r) r).

(** CollisionShape.cpp:73-86: one coordinate of the result, from one row of the matrix. *)
Definition extend (m mn mx : R) (acc : R * R) : R * R :=
  let e := m * mn in
  let f := m * mx in
  if rlt e f then (fst acc + e, snd acc + f) else (fst acc + f, snd acc + e).
Definition transform_row (row : vec3) (p : R) (b : box3) : R * R :=
  extend (vz row) (vz (bmin b)) (vz (bmax b))
    (extend (vy row) (vy (bmin b)) (vy (bmax b))
       (extend (vx row) (vx (bmin b)) (vx (bmax b)) (p, p))).
(** CollisionShape.cpp:54-96 computeTransformedAABB, for the local bounds [b]. *)
Definition transformed_bounds (b : box3) (t : transform) : box3 :=
  let m := quat_matrix (t_rot t) in
  let rx := transform_row (row0 m) (vx (t_pos t)) b in
  let ry := transform_row (row1 m) (vy (t_pos t)) b in
  let rz := transform_row (row2 m) (vz (t_pos t)) b in
  Box3 (V3 (fst rx) (fst ry) (fst rz)) (V3 (snd rx) (snd ry) (snd rz)).
(** SphereShape.cpp:49-58 computeTransformedAABB. *)
Definition sphere_world_bounds (r : R) (t : transform) : box3 :=
  Box3 (vsub (t_pos t) (V3 r r r)) (vadd (t_pos t) (V3 r r r)).
(** TriangleShape.cpp:124-138 computeTransformedAABB; Vector3.h getMinValue and getMaxValue. *)
Definition min3 (a b c : R) : R := Rmin (Rmin a b) c.
Definition max3 (a b c : R) : R := Rmax (Rmax a b) c.
Definition triangle_world_bounds (a b c : vec3) (t : transform) : box3 :=
  let a := tr_point t a in let b := tr_point t b in let c := tr_point t c in
  Box3 (V3 (min3 (vx a) (vx b) (vx c)) (min3 (vy a) (vy b) (vy c)) (min3 (vz a) (vz b) (vz c)))
       (V3 (max3 (vx a) (vx b) (vx c)) (max3 (vy a) (vy b) (vy c)) (max3 (vz a) (vz b) (vz c))).

(** ** Support points *)

(** SphereShape.h:149-153, BoxShape.h:167-172, CapsuleShape.h:189-205 getLocalSupportPointWithoutMargin. *)
Definition sphere_support0 (d : vec3) : vec3 := V3 0 0 0.
Definition box_support0 (h d : vec3) : vec3 :=
  V3 (if rlt (vx d) 0 then - vx h else vx h) (if rlt (vy d) 0 then - vy h else vy h) (if rlt (vz d) 0 then - vz h else vz h).
Definition capsule_support0 (hh : R) (d : vec3) : vec3 :=
  if rlt (- hh * vy d) (hh * vy d) then V3 0 hh 0 else V3 0 (- hh) 0.
(** ConvexShape.cpp:40-58 getLocalSupportPointWithMargin, for the support point [s] without margin. *)
Definition with_margin (eps margin : R) (s d : vec3) : vec3 :=
  if req margin 0 then s
  else vadd s (vscale margin (if rlt (eps * eps) (vlen2 d) then vunit eps d else V3 0 (-1) 0)).
Definition sphere_support (eps r : R) (d : vec3) : vec3 := with_margin eps r (sphere_support0 d) d.
Definition box_support (eps : R) (h d : vec3) : vec3 := with_margin eps 0 (box_support0 h d) d.
Definition capsule_support (eps hh r : R) (d : vec3) : vec3 := with_margin eps r (capsule_support0 hh d) d.

(** ** Point tests *)

(** SphereShape.h:181-183, BoxShape.h:175-179, CapsuleShape.cpp:70-84 testPointInside. *)
Definition sphere_inside (r : R) (p : vec3) : bool := rlt (vlen2 p) (r * r).
Definition box_inside (h p : vec3) : bool :=
  (rlt (vx p) (vx h) && rlt (- vx h) (vx p) && rlt (vy p) (vy h) && rlt (- vy h) (vy p)
   && rlt (vz p) (vz h) && rlt (- vz h) (vz p))%bool.
Definition capsule_inside (hh r : R) (p : vec3) : bool :=
  let d1 := vy p - hh in
  let d2 := vy p + hh in
  let xs := vx p * vx p in
  let zs := vz p * vz p in
  let r2 := r * r in
  ((rlt (xs + zs) r2 && rlt (vy p) hh && rlt (- hh) (vy p)) || rlt (xs + zs + d1 * d1) r2 || rlt (xs + zs + d2 * d2) r2)%bool.

(** ** Ray casts *)

(** SphereShape.cpp:61-103, and CapsuleShape.cpp:243-286 raycastWithSphereEndCap which is the same computation for a
    sphere with centre [c].  The assertion [t >= 0] is not modelled. *)
Definition sphere_cast_at (eps r : R) (ctr : vec3) (y : ray) : option (R * vec3) :=
  let m := vsub (ray_p1 y) ctr in
  let c := vdot m m - r * r in
  if rlt c 0 then None
  else
    let d := vsub (ray_p2 y) (ray_p1 y) in
    let b := vdot m d in
    if rlt 0 b then None
    else
      let l2 := vlen2 d in
      let disc := b * b - l2 * c in
      if (rlt disc 0 || rlt l2 eps)%bool then None
      else
        let t := - b - sqrt disc in
        if rlt t (ray_max y * l2) then
          let t := t / l2 in Some (t, vadd (ray_p1 y) (vscale t d))
        else None.
Definition sphere_cast (eps r : R) (y : ray) : option hit :=
  match sphere_cast_at eps r vzero y with Some (t, p) => Some (Hit t p p) | None => None end.

(** BoxShape.cpp:73-111: one slab.  The state is (tMin, tMax, normalDirection). *)
Definition box_slab (eps : R) (h : vec3) (y : ray) (i : nat) (st : R * R * vec3) : option (R * R * vec3) :=
  let '(tmin, tmax, n) := st in
  let d := comp (vsub (ray_p2 y) (ray_p1 y)) i in
  let p := comp (ray_p1 y) i in
  let hi := comp h i in
  if rlt (Rabs d) eps then
    (if (rlt hi p || rlt p (- hi))%bool then None else Some st)
  else
    let o := 1 / d in
    let t1 := (- hi - p) * o in
    let t2 := (hi - p) * o in
    let cn := axis i (- hi) in
    let '(t1, t2, cn) := if rlt t2 t1 then (t2, t1, vneg cn) else (t1, t2, cn) in
    let '(tmin, n) := if rlt tmin t1 then (t1, cn) else (tmin, n) in
    let tmax := Rmin tmax t2 in
    if rlt (ray_max y) tmin then None
    else if rlt tmax tmin then None
    else Some (tmin, tmax, n).
Definition obind {A B : Type} (x : option A) (f : A -> option B) : option B :=
  match x with Some a => f a | None => None end.
(** BoxShape.cpp:62-127 raycast. *)
Definition box_cast (eps big : R) (h : vec3) (y : ray) : option hit :=
  obind (box_slab eps h y 0 (- big, big, V3 0 0 0)) (fun st =>
  obind (box_slab eps h y 1 st) (fun st =>
  obind (box_slab eps h y 2 st) (fun st =>
    let '(tmin, _, n) := st in
    if (rlt tmin 0 || rlt (ray_max y) tmin)%bool then None
    else Some (Hit tmin (vadd (ray_p1 y) (vscale tmin (vsub (ray_p2 y) (ray_p1 y)))) n)))).

(** CapsuleShape.cpp:135-148, 155-168, 191-204 and 209-222: the ray against one end cap. *)
Definition cap_cast (eps r : R) (ctr : vec3) (y : ray) : option hit :=
  match sphere_cast_at eps r ctr y with Some (t, p) => Some (Hit t p (vsub p ctr)) | None => None end.
(** CapsuleShape.cpp:97-240 raycast. *)
Definition capsule_cast (eps hh r : R) (y : ray) : option hit :=
  let p1 := ray_p1 y in
  let n := vsub (ray_p2 y) p1 in
  let p := V3 0 (- hh) 0 in
  let q := V3 0 hh 0 in
  let d := vsub q p in
  let m := vsub p1 p in
  let mD := vdot m d in
  let nD := vdot n d in
  let dD := vdot d d in
  let v1 := vdot (vsub p1 (V3 0 (- hh - r) 0)) d in
  if (rlt v1 0 && rlt (v1 + nD) 0)%bool then None
  else
    let extra := 2 * r * vy d in
    if (rlt (dD + extra) v1 && rlt (dD + extra) (v1 + nD))%bool then None
    else
      let nN := vdot n n in
      let mN := vdot m n in
      let a := dD * nN - nD * nD in
      let k := vdot m m - r * r in
      let c := dD * k - mD * mD in
      if rlt (Rabs a) (/ 100) then
        if rlt 0 c then None
        else if rlt mD 0 then cap_cast eps r p y
        else if rlt dD mD then cap_cast eps r q y
        else None
      else
        let b := dD * mN - nD * mD in
        let disc := b * b - a * c in
        if rlt disc 0 then None
        else
          let t := (- b - sqrt disc) / a in
          let value := mD + t * nD in
          if rlt value 0 then cap_cast eps r p y
          else if rlt dD value then cap_cast eps r q y
          else if (rlt t 0 || rlt (ray_max y) t)%bool then None
          else
            let hp := vadd p1 (vscale t n) in
            let v := vsub hp p in
            let w := vscale (vdot v d / vlen2 d) d in
            Some (Hit t hp (vunit eps (vsub hp (vadd p w)))).

(** include/reactphysics3d/collision/shapes/TriangleShape.h: TriangleRaycastSide. *)
Inductive side : Type := Front | Back | FrontAndBack.
(** TriangleShape.cpp:157-185: the rejection of one of the three products [x] ([first] is the product [u]). *)
Definition side_rejects (s : side) (first x : R) : bool :=
  match s with Front => rlt x 0 | Back => rlt 0 x | FrontAndBack => negb (same_sign first x) end.
(** mathematics_common.h:42-44 approxEqual. *)
Definition approx_equal (eps a b : R) : bool := rlt (Rabs (a - b)) eps.
(** TriangleShape.cpp:143-223 raycast.  For FRONT_AND_BACK the code has no test on [u] alone, and comparing [u] with itself
    never rejects. *)
Definition triangle_cast (eps : R) (s : side) (a b c : vec3) (y : ray) : option hit :=
  let p1 := ray_p1 y in
  let pq := vsub (ray_p2 y) p1 in
  let pa := vsub a p1 in
  let pb := vsub b p1 in
  let pc := vsub c p1 in
  let m := vcross pq pc in
  let u := vdot pb m in
  if side_rejects s u u then None
  else
    let v := - vdot pa m in
    if side_rejects s u v then None
    else
      let w := vdot pa (vcross pq pb) in
      if side_rejects s u w then None
      else if (approx_equal eps u 0 && approx_equal eps v 0 && approx_equal eps w 0)%bool then None
      else
        let denom := 1 / (u + v + w) in
        let u := u * denom in
        let v := v * denom in
        let w := w * denom in
        let hp := vadd (vadd (vscale u a) (vscale v b)) (vscale w c) in
        let f := vdot (vsub hp p1) pq / vlen2 pq in
        if (rlt f 0 || rlt (ray_max y) f)%bool then None
        else
          let n := vnormalize eps (vcross (vsub b a) (vsub c a)) in
          Some (Hit f hp (if rlt 0 (vdot n pq) then vneg n else n)).

(** ** Convex meshes *)

(** include/reactphysics3d/collision/ConvexMesh.h: the vertices, and for each face its normal and the index of its first
    vertex. *)
Record cmesh : Type := CMesh { cm_vertices : list vec3; cm_faces : list (vec3 * nat) }.
Definition cm_vertex (m : cmesh) (i : nat) : vec3 := nth i (cm_vertices m) vzero.
(** ConvexMeshShape.cpp:50-69 computeScaledFacesNormals: one face.  The assertion is not modelled. *)
Definition scaled_normal (scale n : vec3) : vec3 :=
  let n := vmul (V3 (1 / vx scale) (1 / vy scale) (1 / vz scale)) n in vdiv n (vlen n).
(** ConvexMeshShape.cpp:86-97: the scan of the vertices; [i] is the next index. *)
Fixpoint support_scan (d : vec3) (vs : list vec3) (i best : nat) (mx : R) : nat :=
  match vs with
  | [] => best
  | v :: rest => let k := vdot d v in
                 if rlt mx k then support_scan d rest (S i) i k else support_scan d rest (S i) best mx
  end.
(** ConvexMeshShape.cpp:80-103 getLocalSupportPointWithoutMargin. *)
Definition cmesh_support0 (big : R) (m : cmesh) (scale d : vec3) : vec3 :=
  vmul (cm_vertex m (support_scan d (cm_vertices m) 0 0 (- big))) scale.
(** ConvexMeshShape.cpp:121-161: one face.  The state is (tMin, tMax, the normal found so far). *)
Definition cmesh_face (m : cmesh) (scale : vec3) (y : ray) (f : vec3 * nat) (st : R * R * option vec3) : option (R * R * option vec3) :=
  let '(tmin, tmax, found) := st in
  let n := scaled_normal scale (fst f) in
  let fp := cm_vertex m (snd f) in
  let denom := vdot n (vsub (ray_p2 y) (ray_p1 y)) in
  let dist := vdot n fp - vdot n (ray_p1 y) in
  if req denom 0 then (if rlt dist 0 then None else Some st)
  else
    let t := dist / denom in
    let '(tmin, tmax, found) :=
      if rlt denom 0 then (if rlt tmin t then (t, tmax, Some n) else st)
      else (if rlt t tmax then (tmin, t, found) else st) in
    if rlt tmax tmin then None else Some (tmin, tmax, found).
Fixpoint cmesh_faces (m : cmesh) (scale : vec3) (y : ray) (fs : list (vec3 * nat)) (st : R * R * option vec3) : option (R * R * option vec3) :=
  match fs with
  | [] => Some st
  | f :: rest => obind (cmesh_face m scale y f st) (cmesh_faces m scale y rest)
  end.
(** ConvexMeshShape.cpp:107-182 raycast. *)
Definition cmesh_cast (m : cmesh) (scale : vec3) (y : ray) : option hit :=
  obind (cmesh_faces m scale y (cm_faces m) (0, ray_max y, None)) (fun st =>
    let '(tmin, _, found) := st in
    match found with
    | Some n => Some (Hit tmin (vadd (ray_p1 y) (vscale tmin (vsub (ray_p2 y) (ray_p1 y)))) n)
    | None => None
    end).
(** ConvexMeshShape.cpp:185-203 testPointInside; mathematics_functions.h:401-403 computePointToPlaneDistance. *)
Definition cmesh_inside (m : cmesh) (scale p : vec3) : bool :=
  forallb (fun f => let n := scaled_normal scale (fst f) in
                    negb (rlt 0 (vdot n (vsub p (cm_vertex m (snd f)))))) (cm_faces m).

(** ** Colliders *)

(** src/collision/Collider.cpp:173-192 raycast, for the ray cast [cast] of the shape and an active body. *)
Definition collider_cast (eps : R) (cast : ray -> option hit) (t : transform) (y : ray) : option hit :=
  let inv := tr_inverse t in
  match cast (Ray (tr_point inv (ray_p1 y)) (tr_point inv (ray_p2 y)) (ray_max y)) with
  | Some h => Some (Hit (hit_fraction h) (tr_point t (hit_point h)) (vnormalize eps (quat_vec (t_rot t) (hit_normal h))))
  | None => None
  end.
(** src/collision/Collider.cpp:58-64 testPointInside. *)
Definition collider_inside (inside : vec3 -> bool) (body local : transform) (p : vec3) : bool :=
  inside (tr_point (tr_inverse (tr_mul body local)) p).
