(** Model of the creation of convex meshes (ConvexMesh.cpp, PhysicsCommon.cpp) from polygon data: the
    vertices, and for each face the indices of its vertices (what PolygonVertexArray returns; its byte
    layout is not modelled).  Decimals are real numbers. *)
From Verif Require Import Base VecModel HalfEdgeModel.
Open Scope R_scope.

(** ConvexMesh.h:133-136 getVertex; out of range is undefined. *)
Definition vertex (vs : list vec3) (i : nat) : res vec3 := rd (nth_error vs i).

(** include/reactphysics3d/collision/shapes/AABB.h:164-175 inflateWithPoint. *)
Definition inflate_point (b : vec3 * vec3) (p : vec3) : vec3 * vec3 :=
  let pick (c : R -> R -> bool) x m := if c x m then x else m in
  let gt a b := rlt b a in
  (V3 (pick rlt (vx p) (vx (fst b))) (pick rlt (vy p) (vy (fst b))) (pick rlt (vz p) (vz (fst b))),
   V3 (pick gt (vx p) (vx (snd b))) (pick gt (vy p) (vy (snd b))) (pick gt (vz p) (vz (snd b)))).
(** ConvexMesh.cpp:79-113 copyVertices: bounds (a default box without vertices: AABB.cpp:33-35, zero),
    centroid and whether there are vertices. *)
Definition mesh_bounds (vs : list vec3) : vec3 * vec3 :=
  match vs with [] => (vzero, vzero) | v :: _ => fold_left inflate_point vs (v, v) end.
Definition mesh_centroid (vs : list vec3) : vec3 :=
  let s := fold_left vadd vs vzero in
  match vs with [] => s | _ => vdiv s (INR (length vs)) end.

(** ConvexMesh.cpp:225-233: one step of Newell's method. *)
Definition newell (v1 v2 : vec3) : vec3 :=
  V3 ((vy v1 - vy v2) * (vz v1 + vz v2)) ((vz v1 - vz v2) * (vx v1 + vx v2)) ((vx v1 - vx v2) * (vy v1 + vy v2)).
Fixpoint newell_loop (vs : list vec3) (prev : nat) (face : list nat) (n : vec3) : res vec3 :=
  match face with
  | [] => Ok n
  | j :: r =>
      let* v1 := vertex vs prev in
      let* v2 := vertex vs j in
      newell_loop vs j r (vadd n (newell v1 v2))
  end.
(** ConvexMesh.cpp:218-237 computeFaceNormal; the assertion on the number of vertices is not modelled. *)
Definition face_normal (vs : list vec3) (face : list nat) : res vec3 :=
  newell_loop vs (last face O) face vzero.

(** ConvexMesh.cpp:187-215 computeFacesNormals from the face [f] on: a face with fewer than three
    vertices adds no normal, but the following ones are found at their face index. *)
Fixpoint faces_normals (eps : R) (vs : list vec3) (f : nat) (faces : list (list nat)) (ns : list vec3) (valid : bool) : res (list vec3 * bool) :=
  match faces with
  | [] => Ok (ns, valid)
  | face :: r =>
      if Nat.leb 3 (length face) then
        let* n := face_normal vs face in
        let ns := ns ++ [n] in
        let* m := rd (nth_error ns f) in
        if rlt eps (vlen m) then
          let* ns := wr ns f (vdiv m (vlen m)) in faces_normals eps vs (S f) r ns valid
        else faces_normals eps vs (S f) r ns false
      else faces_normals eps vs (S f) r ns valid
  end.
(** ConvexMesh.cpp:249-264 computeVolume. *)
Fixpoint volume_sum (vs ns : list vec3) (f : nat) (faces : list (list nat)) (sum : R) : res R :=
  match faces with
  | [] => Ok sum
  | face :: r =>
      let* a := face_normal vs face in
      let area := vlen a * (1 / 2) in
      let* n := rd (nth_error ns f) in
      let* i := rd (nth_error face 0) in
      let* p := vertex vs i in
      volume_sum vs ns (S f) r (sum + vdot p n * area)
  end.

(** ConvexMesh.h:55-73. *)
Record mesh : Type := mk_mesh {
  me_vertices : list vec3; me_faces : list (list nat); me_half : structure;
  me_normals : list vec3; me_centroid : vec3; me_bounds : vec3 * vec3; me_volume : R }.
(** ConvexMesh.cpp:51-76 init and PhysicsCommon.cpp:607-629 createConvexMesh; [None]: a null pointer, with
    messages.  [eps]: MACHINE_EPSILON. *)
Definition create_mesh (eps : R) (vs : list vec3) (faces : list (list nat)) : res (option mesh) :=
  let valid1 := match vs with [] => false | _ => true end in
  let* (valid2, h) := create_half_edges (length vs) faces in
  let* (ns, valid3) := faces_normals eps vs 0 faces [] true in
  let* sum := volume_sum vs ns 0 faces 0 in
  let m := mk_mesh vs faces h ns (mesh_centroid vs) (mesh_bounds vs) (Rabs sum / 3) in
  Ok (if (valid1 && valid2 && valid3)%bool then Some m else None).

(** ConvexMeshShape.h:230-232 getVolume, 225-227 getCentroid; ConvexMeshShape.cpp:209-213 getLocalBounds. *)
Definition scaled_volume (m : mesh) (s : vec3) : R := me_volume m * vx s * vy s * vz s.
Definition scaled_centroid (m : mesh) (s : vec3) : vec3 := vmul (me_centroid m) s.
Definition scaled_bounds (m : mesh) (s : vec3) : vec3 * vec3 := (vmul (fst (me_bounds m)) s, vmul (snd (me_bounds m)) s).
(** ConvexMesh.h:202-212 getLocalInertiaTensor. *)
Definition scaled_inertia (m : mesh) (mass : R) (s : vec3) : vec3 :=
  let k := 1 / 3 * mass in
  let e := vmul (vscale (1 / 2) s) (vsub (snd (me_bounds m)) (fst (me_bounds m))) in
  V3 (k * (vy e * vy e + vz e * vz e)) (k * (vx e * vx e + vz e * vz e)) (k * (vx e * vx e + vy e * vy e)).
