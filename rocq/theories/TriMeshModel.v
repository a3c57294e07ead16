(** Triangle meshes (src/collision/TriangleMesh.cpp, include/reactphysics3d/collision/TriangleMesh.h) and concave mesh
    shapes (src/collision/shapes/ConcaveMeshShape.cpp), in exact arithmetic, on top of the model of the dynamic tree of
    boxes (TreeModel.v), of the test of a ray against a box (RayModel.v) and of the ray cast of a triangle (ShapeModel.v).
    [eps] is MACHINE_EPSILON. *)
From Coq Require Import List ZArith.
From Verif Require Import Base Decimal TreeModel RayModel VecModel ShapeModel.
Import ListNotations.
Local Open Scope R_scope.

(** The real numbers as the decimals of the tree. *)
Definition real_ops : decimal_ops R := mk_decimal R 0 2 (/ 2) Rplus Rminus Rmult rlt rle.
Definition tree_vec (v : vec3) : vec R := mk_vec (vx v) (vy v) (vz v).
Definition tree_box (b : box3) : box R := mk_box (tree_vec (bmin b)) (tree_vec (bmax b)).
Definition real_vec (v : vec R) : vec3 := V3 (TreeModel.vx v) (TreeModel.vy v) (TreeModel.vz v).
Definition real_box (b : box R) : box3 := Box3 (real_vec (b_min b)) (real_vec (b_max b)).

(** include/reactphysics3d/collision/TriangleVertexArray.h: what the user gives.  Simplified: the strides and the types of
    the raw arrays; the copy of the normals. *)
Definition face : Type := (nat * nat * nat)%type.
Record tri_array : Type := TriArray { ta_vertices : list vec3; ta_normals : option (list vec3); ta_faces : list face }.

(** The messages of TriangleMesh.cpp:121, 142, 156, 173 and 205, without their texts. *)
Inductive message : Type :=
| IndexOut (f v : nat) | ZeroArea (f : nat) | ZeroEdge (f : nat) | SmallNormal (v : nat) | NoTriangles.

(** TriangleMesh.h:61-76.  The array of indices is grouped by three. *)
Record tmesh : Type := TMesh { tm_vertices : list vec3; tm_normals : list vec3; tm_faces : list face; tm_tree : dtree R }.

(** Writing a place of an array. *)
Fixpoint put_at {A} (i : nat) (a : A) (l : list A) : list A :=
  match l, i with
  | [], _ => []
  | _ :: r, O => a :: r
  | x :: r, S j => x :: put_at j a r
  end.
(** Array.h removeAt, on the contents. *)
Fixpoint delete_at {A} (i : nat) (l : list A) : list A :=
  match l, i with
  | [], _ => []
  | _ :: r, O => r
  | x :: r, S j => x :: delete_at j r
  end.

(** TriangleMesh.cpp:73-84: the largest absolute coordinates. *)
Definition larger (m a : R) : R := if rlt m (Rabs a) then Rabs a else m.
Definition extents (vs : list vec3) : vec3 :=
  fold_left (fun m v => V3 (larger (vx m) (vx v)) (larger (vy m) (vy v)) (larger (vz m) (vz v))) vs vzero.
(** TriangleMesh.cpp:69-88 computeEpsilon. *)
Definition mesh_epsilon (eps : R) (vs : list vec3) : R :=
  let m := extents vs in 3 * (vx m + vy m + vz m) * eps.

(** The variables of the loop of copyData (TriangleMesh.cpp:91-199). *)
Record builder : Type := Builder
  { b_vertices : list vec3; b_normals : list vec3; b_faces : list face; b_used : list bool; b_valid : bool; b_messages : list message }.
(** TriangleMesh.cpp:93-104. *)
Definition start (n : nat) : builder := Builder (repeat vzero n) (repeat vzero n) [] (repeat false n) true [].
(** TriangleMesh.cpp:116-129: the indices out of range of a face. *)
Definition bad_indices (n : nat) (f : face) : list nat :=
  let '(a, b, c) := f in filter (fun v => Nat.leb n v) [a; b; c].
(** TriangleMesh.cpp:137-138. *)
Definition zero_area (e2 : R) (v1 v2 v3 : vec3) : bool := rlt (vlen2 (vcross (vsub v3 v1) (vsub v2 v1))) e2.
(** TriangleMesh.cpp:147-152. *)
Definition zero_edge (e2 : R) (v1 v2 v3 : vec3) : bool :=
  (rlt (vlen2 (vsub v2 v1)) e2 || rlt (vlen2 (vsub v3 v2)) e2 || rlt (vlen2 (vsub v1 v3)) e2)%bool.
(** TriangleMesh.cpp:111 and 164-177: the normals of the corners of a face, and the messages about them. *)
Definition face_normals (e2 : R) (ta : tri_array) (f : face) : res (vec3 * vec3 * vec3 * list message) :=
  let '(a, b, c) := f in
  match ta_normals ta with
  | None => Ok (vzero, vzero, vzero, [])
  | Some ns =>
      let* n1 := rd (nth_error ns a) in
      let* n2 := rd (nth_error ns b) in
      let* n3 := rd (nth_error ns c) in
      Ok (n1, n2, n3, map (fun p => SmallNormal (fst p)) (filter (fun p => rlt (vlen2 (snd p)) e2) [(a, n1); (b, n2); (c, n3)]))
  end.
(** TriangleMesh.cpp:107-199: one face of the loop; [i] is its index. *)
Definition copy_face (e2 : R) (ta : tri_array) (i : nat) (f : face) (s : builder) : res builder :=
  let '(a, b, c) := f in
  match bad_indices (length (ta_vertices ta)) f with
  | (_ :: _) as bad => Ok (Builder (b_vertices s) (b_normals s) (b_faces s) (b_used s) false (b_messages s ++ map (IndexOut i) bad))
  | [] =>
      let* v1 := rd (nth_error (ta_vertices ta) a) in
      let* v2 := rd (nth_error (ta_vertices ta) b) in
      let* v3 := rd (nth_error (ta_vertices ta) c) in
      let area := zero_area e2 v1 v2 v3 in
      let edge := zero_edge e2 v1 v2 v3 in
      let ms := b_messages s ++ (if area then [ZeroArea i] else []) ++ (if edge then [ZeroEdge i] else []) in
      if (area || edge)%bool then Ok (Builder (b_vertices s) (b_normals s) (b_faces s) (b_used s) (b_valid s) ms)
      else
        let* (n1, n2, n3, errors) := face_normals e2 ta f in
        Ok (Builder (put_at c v3 (put_at b v2 (put_at a v1 (b_vertices s))))
                    (put_at c n3 (put_at b n2 (put_at a n1 (b_normals s))))
                    (b_faces s ++ [f])
                    (put_at c true (put_at b true (put_at a true (b_used s))))
                    (b_valid s && match errors with [] => true | _ => false end)
                    (ms ++ errors))
  end.
(** TriangleMesh.cpp:107: the loop over the faces. *)
Fixpoint copy_faces (e2 : R) (ta : tri_array) (i : nat) (fs : list face) (s : builder) : res builder :=
  match fs with
  | [] => Ok s
  | f :: fs => let* s := copy_face e2 ta i f s in copy_faces e2 ta (S i) fs s
  end.

(** TriangleMesh.cpp:229-236: the indices after the removal of the vertex [i]. *)
Definition shift_index (i t : nat) : nat := if Nat.ltb i t then pred t else t.
Definition shift_face (i : nat) (f : face) : face := let '(a, b, c) := f in (shift_index i a, shift_index i b, shift_index i c).
(** TriangleMesh.cpp:220-238: the loop, from the index [i] down to 1. *)
Fixpoint remove_loop (i : nat) (used : list bool) (vs ns : list vec3) (fs : list face) : res (list vec3 * list vec3 * list face) :=
  match i with
  | O => Ok (vs, ns, fs)
  | S j =>
      let* u := rd (nth_error used i) in
      if u then remove_loop j used vs ns fs
      else remove_loop j used (delete_at i vs) (delete_at i ns) (map (shift_face i) fs)
  end.
(** TriangleMesh.cpp:217-239 removeUnusedVertices.  Without vertices the unsigned index starts at its largest value, and the
    array is read out of its range. *)
Definition remove_unused (used : list bool) (vs ns : list vec3) (fs : list face) : res (list vec3 * list vec3 * list face) :=
  match length vs with
  | O => Ub
  | S j => remove_loop j used vs ns fs
  end.
(** TriangleMesh.cpp:91-213 copyData; the assertion on the epsilon is not modelled. *)
Definition copy_data (e : R) (ta : tri_array) : res (list vec3 * list vec3 * list face * bool * list message) :=
  let* s := copy_faces (e * e) ta 0 (ta_faces ta) (start (length (ta_vertices ta))) in
  let* (vs, ns, fs) := remove_unused (b_used s) (b_vertices s) (b_normals s) (b_faces s) in
  match fs with
  | [] => Ok (vs, ns, fs, false, b_messages s ++ [NoTriangles])
  | _ => Ok (vs, ns, fs, b_valid s, b_messages s)
  end.

(** The three vertices of a face. *)
Definition face_points (vs : list vec3) (f : face) : res (vec3 * vec3 * vec3) :=
  let '(a, b, c) := f in
  let* p := rd (nth_error vs a) in
  let* q := rd (nth_error vs b) in
  let* r := rd (nth_error vs c) in
  Ok (p, q, r).
(** TriangleMesh.cpp:296-318: the contribution of one corner, [p] with the next vertex [q] and the previous one [r]; the
    lengths of the edges are those of the lines 290-293. *)
Definition corner_normal (eps : R) (p q r : vec3) (previous this : R) : vec3 :=
  let a := vsub q p in
  let b := vsub r p in
  let cosA := vdot a b / (previous * this) in
  let cosA := Rmin (Rmax cosA 0) 1 in
  vscale (acos cosA) (vnormalize eps (vcross a b)).
Definition add_normal (i : nat) (n : vec3) (ns : list vec3) : res (list vec3) :=
  let* m := rd (nth_error ns i) in Ok (put_at i (vadd m n) ns).
(** TriangleMesh.cpp:280-320: one face. *)
Definition add_face_normals (eps : R) (vs : list vec3) (f : face) (ns : list vec3) : res (list vec3) :=
  let '(a, b, c) := f in
  let* (p, q, r) := face_points vs f in
  let e0 := vlen (vsub q p) in
  let e1 := vlen (vsub r q) in
  let e2 := vlen (vsub p r) in
  let* ns := add_normal a (corner_normal eps p q r e2 e0) ns in
  let* ns := add_normal b (corner_normal eps q r p e0 e1) ns in
  add_normal c (corner_normal eps r p q e1 e2) ns.
Fixpoint sum_normals (eps : R) (vs : list vec3) (fs : list face) (ns : list vec3) : res (list vec3) :=
  match fs with
  | [] => Ok ns
  | f :: fs => let* ns := add_face_normals eps vs f ns in sum_normals eps vs fs ns
  end.
(** TriangleMesh.cpp:277-332 computeVerticesNormals; the assertions are not modelled. *)
Definition compute_normals (eps : R) (vs : list vec3) (fs : list face) (ns : list vec3) : res (list vec3) :=
  let* ns := sum_normals eps vs fs ns in Ok (map (vnormalize eps) ns).

(** AABB.h:259-282 createAABBForTriangle. *)
Definition lower (a b : R) : R := if rlt b a then b else a.
Definition upper (a b : R) : R := if rlt a b then b else a.
Definition triangle_box (p q r : vec3) : box3 :=
  Box3 (V3 (lower (lower (vx p) (vx q)) (vx r)) (lower (lower (vy p) (vy q)) (vy r)) (lower (lower (vz p) (vz q)) (vz r)))
       (V3 (upper (upper (vx p) (vx q)) (vx r)) (upper (upper (vy p) (vy q)) (vy r)) (upper (upper (vz p) (vz q)) (vz r))).
(** TriangleMesh.cpp:242-263 initBVHTree; [f] is the index of the next triangle.  DynamicAABBTree.h: the boxes of this tree
    are not inflated. *)
Fixpoint build_tree (vs : list vec3) (f : nat) (fs : list face) (t : dtree R) : res (dtree R) :=
  match fs with
  | [] => Ok t
  | g :: fs =>
      let* (p, q, r) := face_points vs g in
      let* (t, _) := add_object real_ops 0 (tree_box (triangle_box p q r)) (Z.of_nat f) t in
      build_tree vs (S f) fs t
  end.
(** TriangleMesh.cpp:42-67 init. *)
Definition init_mesh (eps : R) (ta : tri_array) : res (bool * tmesh * list message) :=
  let* (vs, ns, fs, valid, ms) := copy_data (mesh_epsilon eps (ta_vertices ta)) ta in
  let* ns := match ta_normals ta with
             | None => if valid then compute_normals eps vs fs ns else Ok ns
             | Some _ => Ok ns
             end in
  let* t := build_tree vs 0 fs (init_tree real_ops) in
  Ok (valid, TMesh vs ns fs t, ms).
(** PhysicsCommon.cpp:705-722 createTriangleMesh. *)
Definition create_mesh (eps : R) (ta : tri_array) : res (option tmesh * list message) :=
  let* (valid, m, ms) := init_mesh eps ta in Ok (if valid then Some m else None, ms).
(** TriangleMesh.cpp:269-271 getBounds. *)
Definition mesh_bounds (m : tmesh) : res box3 := let* b := get_root_box (tm_tree m) in Ok (real_box b).

(** ConcaveMeshShape.h: the mesh, the scale, the scaled normals, the tested side of the triangles. *)
Record cshape : Type := CShape { cs_mesh : tmesh; cs_scale : vec3; cs_normals : list vec3; cs_side : side }.
(** ConcaveMeshShape.cpp:64-72: one normal; the assertion is not modelled. *)
Definition inverse (k : vec3) : vec3 := V3 (1 / vx k) (1 / vy k) (1 / vz k).
Definition scale_normal (k n : vec3) : vec3 := let n := vmul (inverse k) n in vdiv n (vlen n).
(** ConcaveMeshShape.cpp:36-44, constructor. *)
Definition new_shape (m : tmesh) (k : vec3) : cshape := CShape m k (map (scale_normal k) (tm_normals m)) Front.
(** ConcaveMeshShape.cpp:47-53 setScale. *)
Definition set_shape_scale (k : vec3) (s : cshape) : cshape :=
  CShape (cs_mesh s) k (map (scale_normal k) (tm_normals (cs_mesh s))) (cs_side s).
(** ConcaveShape.h setRaycastTestType. *)
Definition set_side (d : side) (s : cshape) : cshape := CShape (cs_mesh s) (cs_scale s) (cs_normals s) d.
(** ConcaveMeshShape.cpp:79-88 getTriangleVertices. *)
Definition shape_triangle (s : cshape) (i : nat) : res (vec3 * vec3 * vec3) :=
  let* f := rd (nth_error (tm_faces (cs_mesh s)) i) in
  let* (p, q, r) := face_points (tm_vertices (cs_mesh s)) f in
  Ok (vmul p (cs_scale s), vmul q (cs_scale s), vmul r (cs_scale s)).
(** ConcaveMeshShape.cpp:91-103 getTriangleVerticesNormals. *)
Definition shape_normals (s : cshape) (i : nat) : res (vec3 * vec3 * vec3) :=
  let* f := rd (nth_error (tm_faces (cs_mesh s)) i) in face_points (cs_normals s) f.
(** AABB.h:218-221 applyScale. *)
Definition apply_scale (k : vec3) (b : box3) : box3 := Box3 (vmul (bmin b) k) (vmul (bmax b) k).
(** ConcaveMeshShape.cpp:276-285 getLocalBounds. *)
Definition concave_bounds (s : cshape) : res box3 := let* b := mesh_bounds (cs_mesh s) in Ok (apply_scale (cs_scale s) b).

(** A reported triangle: its vertices, its normals and its identifier (ConcaveMeshShape.h:252-257 computeTriangleShapeId). *)
Record reported : Type := Reported { rp_points : vec3 * vec3 * vec3; rp_normals : vec3 * vec3 * vec3; rp_id : nat }.
Definition triangle_id (s : cshape) (i : nat) : nat := length (tm_faces (cs_mesh s)) + i.
(** ConcaveMeshShape.cpp:157-173: the nodes found. *)
Fixpoint report_nodes (s : cshape) (ids : list Z) : res (list reported) :=
  match ids with
  | [] => Ok []
  | id :: ids =>
      let* d := get_data id (tm_tree (cs_mesh s)) in
      let i := Z.to_nat d in
      let* p := shape_triangle s i in
      let* n := shape_normals s i in
      let* rest := report_nodes s ids in
      Ok (Reported p n (triangle_id s i) :: rest)
  end.
(** ConcaveMeshShape.cpp:135-174 computeOverlappingTriangles. *)
Definition overlapping_triangles (s : cshape) (b : box3) : res (list reported) :=
  let* ids := query real_ops (tree_box (apply_scale (inverse (cs_scale s)) b)) (tm_tree (cs_mesh s)) in report_nodes s ids.

(** ConcaveMeshShape.cpp:185-186: the scaled ray; DynamicAABBTree.cpp:690-692: its direction.  The zeros of a difference of
    equal numbers are positive. *)
Definition tree_ray (k : vec3) (y : ray) : RayModel.ray (T := R) :=
  let p1 := vmul (ray_p1 y) (inverse k) in
  let p2 := vmul (ray_p2 y) (inverse k) in
  mk_ray (tree_vec p1) (tree_vec (vsub p2 p1)) (false, false, false).
(** ConcaveMeshShape.cpp:210-216 raycastBroadPhaseShape. *)
Definition collect (s : list Z) (id : Z) (m : R) : list Z * R := (s ++ [id], m).
(** ConcaveMeshShape.cpp:218-268 raycastTriangles: the smallest fraction and the answer so far. *)
Fixpoint cast_nodes (eps : R) (s : cshape) (y : ray) (ids : list Z) (smallest : R) (best : option (hit * nat)) : res (option (hit * nat)) :=
  match ids with
  | [] => Ok best
  | id :: ids =>
      let* d := get_data id (tm_tree (cs_mesh s)) in
      let i := Z.to_nat d in
      let* (p, q, r) := shape_triangle s i in
      let* _ := shape_normals s i in
      match triangle_cast eps (cs_side s) p q r y with
      | Some h => if rle (hit_fraction h) smallest then cast_nodes eps s y ids (hit_fraction h) (Some (h, i))
                  else cast_nodes eps s y ids smallest best
      | None => cast_nodes eps s y ids smallest best
      end
  end.
(** ConcaveMeshShape.cpp:179-207 raycast: the hit with the index of its triangle. *)
Definition concave_cast (eps : R) (s : cshape) (y : ray) : res (option (hit * nat)) :=
  let* (ids, _) := raycast real_ops (test_ray real_ops Rinv (tree_ray (cs_scale s) y)) collect (ray_max y) [] (tm_tree (cs_mesh s)) in
  cast_nodes eps s y ids (ray_max y) None.
