(** Triangle shapes in the separating axis test and the smoothing of their contacts (TriangleShape.h, TriangleShape.cpp), in exact arithmetic.
    [eps] stands for MACHINE_EPSILON. *)
From Coq Require Import List Bool Arith.
From Verif Require Import Base VecModel GeomModel ShapeModel NarrowModel HalfEdgeModel SatModel.
Import ListNotations.
Local Open Scope R_scope.

(** TriangleShape.cpp:40-63: the constructor for collisions; the three points, the normal, the normals at the points. *)
Record tri_shape : Type := TriShape { ts_a : vec3; ts_b : vec3; ts_c : vec3; ts_n : vec3; ts_na : vec3; ts_nb : vec3; ts_nc : vec3 }.
Definition new_triangle (eps : R) (a b c na nb nc : vec3) : tri_shape :=
  TriShape a b c (vnormalize eps (vcross (vsub b a) (vsub c a))) na nb nc.
(** TriangleShape.h:199-202 getLocalSupportPointWithoutMargin. *)
Definition tri_support (s : tri_shape) (d : vec3) : vec3 :=
  match max_axis (V3 (vdot d (ts_a s)) (vdot d (ts_b s)) (vdot d (ts_c s))) with 0%nat => ts_a s | 1%nat => ts_b s | _ => ts_c s end.
(** PhysicsCommon.cpp:112-131 and TriangleShape.h:237-276, 366-376: a triangle is a polyhedron with two faces. *)
Definition tri_face_list : list (list nat) := [[0;1;2];[0;2;1]]%nat.
Definition tri_solid (s : tri_shape) : res solid :=
  let* e := compute_half_edges 3 tri_face_list in
  Ok (Solid [ts_a s; ts_b s; ts_c s] tri_face_list e [ts_n s; vneg (ts_n s)]
        (vdiv (vadd (vadd (ts_a s) (ts_b s)) (ts_c s)) 3) (tri_support s) true).

(** TriangleShape.h:309-335 computeSmoothLocalContactNormalForTriangle. *)
Definition smooth_normal (eps : R) (s : tri_shape) (p : vec3) : vec3 :=
  let '(u, v, w) := barycentric (ts_a s) (ts_b s) (ts_c s) p in
  if rlt eps u && rlt eps v && rlt eps w then ts_n s
  else
    let n := vadd (vadd (vscale u (ts_na s)) (vscale v (ts_nb s))) (vscale w (ts_nc s)) in
    if rlt (vlen2 n) eps then ts_n s else vunit eps n.
(** TriangleShape.cpp:90-118 computeSmoothMeshContact: the point on the other shape and the normal.  [tt] is the transform of the triangle, [wo] that
    from world space to the space of the other shape, [n] the normal so far. *)
Definition smooth_mesh_contact (eps : R) (s : tri_shape) (p : vec3) (tt wo : transform) (depth : R) (first : bool) (n : vec3) : vec3 * vec3 :=
  let ln := smooth_normal eps s p in
  let wn := quat_vec (t_rot tt) ln in
  let out := if first then n else vneg n in
  let flip := rlt (vdot wn out) 0 in
  let wn := if flip then vneg wn else wn in
  let ln := if flip then vneg ln else ln in
  (tr_point (tr_mul wo tt) (vsub p (vscale depth ln)), if first then wn else vneg wn).
(** TriangleShape.h:342-364 computeSmoothTriangleMeshContact, as called for each contact in SATAlgorithm.cpp:666-675, 867-876 and 1013-1031; [first]: the
    first shape is the triangle. *)
Definition smooth_contact (eps : R) (s : tri_shape) (first : bool) (t1 t2 : transform) (c : contact) : contact :=
  let '(other, n) := smooth_mesh_contact eps s (if first then c_local1 c else c_local2 c) (if first then t1 else t2)
    (if first then tr_inverse t2 else tr_inverse t1) (c_depth c) first (c_normal c) in
  Contact n (c_depth c) (if first then c_local1 c else other) (if first then other else c_local2 c).
(** The test of a triangle and a polyhedron that is not a triangle, with all its contacts smoothed. *)
Definition sat_triangle (eps big : R) (fuel : nat) (clip report first : bool) (s : tri_shape) (p : solid) (t1 t2 : transform) (l : last_frame) : res sat_result :=
  let* ts := tri_solid s in
  let* (b, cs, l') := sat_polyhedra eps big fuel clip report (if first then ts else p) (if first then p else ts) t1 t2 l in
  Ok (b, map (smooth_contact eps s first t1 t2) cs, l').
