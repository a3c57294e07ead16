(** The separating axis test of a capsule and a convex polyhedron (src/collision/narrowphase/SAT/SATAlgorithm.cpp:164-482), in exact arithmetic.
    [eps] stands for MACHINE_EPSILON and [big] for DECIMAL_LARGEST; [hh] is half the height of the capsule and [r] its radius.  Reading an index out
    of range is undefined.  Left out: the smoothing of contacts of triangles. *)
From Coq Require Import List Bool Arith.
From Verif Require Import Base VecModel GeomModel ShapeModel NarrowModel HalfEdgeModel SatModel.
Import ListNotations.
Local Open Scope R_scope.

(** SATAlgorithm.cpp:191-193: the ends of the inner segment. *)
Definition seg_a (hh : R) : vec3 := V3 0 (- hh) 0.
Definition seg_b (hh : R) : vec3 := V3 0 hh 0.
(** SATAlgorithm.cpp:357-378 computePolyhedronFaceVsCapsulePenetrationDepth: depth and normal in the space of the capsule; [t] leads from the space of
    the polyhedron to that of the capsule. *)
Definition cap_face_depth (eps hh r : R) (p : solid) (t : transform) (f : nat) : res (R * vec3) :=
  let* vs := rd (nth_error (so_faces p) f) in
  let* n := normal p f in
  let nc := quat_vec (t_rot t) n in
  let s := capsule_support eps hh r (vneg nc) in
  let* i := rd (nth_error vs 0) in
  let* v := vert p i in
  Ok (vdot (vsub (tr_point t v) s) nc, nc).
(** SATAlgorithm.cpp:321-353 computeEdgeVsCapsuleInnerSegmentPenetrationDepth; [v1] a vertex of the edge in the space of the polyhedron, [d] the
    direction of the edge in the space of the capsule. *)
Definition cap_edge_depth (eps big hh r : R) (p : solid) (t : transform) (v1 d : vec3) : R * vec3 :=
  let axis := vcross (vsub (seg_b hh) (seg_a hh)) d in
  if rle (/ 100000) (vlen2 axis) then
    let c := tr_point t (so_centroid p) in
    let q := tr_point t v1 in
    let axis := vnormalize eps (if rlt (vdot axis (vsub q c)) 0 then vneg axis else axis) in
    (vdot (vsub q (capsule_support eps hh r (vneg axis))) axis, axis)
  else (big, axis).
(** SATAlgorithm.cpp:476-482 isMinkowskiFaceCapsuleVsEdge. *)
Definition cap_minkowski (s n1 n2 : vec3) : bool := rlt (vdot s n1 * vdot s n2) 0.

(** SATAlgorithm.cpp:195-201: the axis of least depth so far. *)
Inductive cap_axis : Type := CapFace (f : nat) | CapEdge (v1 v2 : vec3).
Definition cap_best : Type := R * cap_axis * vec3.
(** SATAlgorithm.cpp:203-226: the faces; [None]: a separating axis. *)
Fixpoint cap_faces (eps hh r : R) (p : solid) (t : transform) (fs : list nat) (best : cap_best) : res (option cap_best) :=
  match fs with
  | [] => Ok (Some best)
  | f :: rest =>
      let* (d, n) := cap_face_depth eps hh r p t f in
      if rle d 0 then Ok None
      else cap_faces eps hh r p t rest (if rlt d (fst (fst best)) then (d, CapFace f, n) else best)
  end.
(** SATAlgorithm.cpp:228-265: the edges (every second half-edge). *)
Fixpoint cap_edges (eps big hh r : R) (p : solid) (t : transform) (is : list nat) (best : cap_best) : res (option cap_best) :=
  match is with
  | [] => Ok (Some best)
  | i :: rest =>
      let* e := half_edge p i in
      let* (a, b) := edge_ends p e in
      let* w := let* k := rd (e_twin e) in half_edge p k in
      let* n1 := normal p (e_face e) in
      let* n2 := normal p (e_face w) in
      let rot := quat_vec (t_rot t) in
      if cap_minkowski (vsub (seg_b hh) (seg_a hh)) (rot n1) (rot n2) then
        let '(d, axis) := cap_edge_depth eps big hh r p t a (rot (vsub b a)) in
        if rle d 0 then Ok None
        else cap_edges eps big hh r p t rest (if rlt d (fst (fst best)) then (d, CapEdge a b, axis) else best)
      else cap_edges eps big hh r p t rest best
  end.

(** SATAlgorithm.cpp:404-428: the planes through the sides of a face. *)
Fixpoint side_planes (fuel : nat) (p : solid) (n : vec3) (first cur : nat) : res (list (vec3 * vec3)) :=
  match fuel with
  | O => Fuel
  | S fuel =>
      let* e := half_edge p cur in
      let* w := let* k := rd (e_twin e) in half_edge p k in
      let* v1 := vert p (e_vertex e) in
      let* v2 := vert p (e_vertex w) in
      let* next := rd (e_next e) in
      let* rest := if (next =? first)%nat then Ok [] else side_planes fuel p n first next in
      Ok ((v1, vcross n (vsub v2 v1)) :: rest)
  end.
(** SATAlgorithm.cpp:382-470 computeCapsulePolyhedronFaceContactPoints; [t] leads to the space of the capsule, [a] and [b] are the ends of the segment in
    the space of the polyhedron, [nw] the normal in world space, [nc] in the space of the capsule; [first]: the capsule is the first shape. *)
Definition cap_face_contacts (fuel : nat) (r : R) (p : solid) (f : nat) (depth : R) (t : transform) (nw nc a b : vec3) (first : bool) : res (bool * list contact) :=
  let* start := rd (nth_error (st_faces (so_edges p)) f) in
  let* n := normal p f in
  let* planes := side_planes fuel p n start start in
  let* clipped := clip_segment a b planes in
  let* p0 := rd (nth_error planes 0) in
  let keep c := rlt (depth - r - / 1000) (vdot (vsub (fst p0) c) n) in
  let contact c :=
    let on_poly := vadd c (vscale (depth - r) n) in
    let on_cap := vsub (tr_point t c) (vscale r nc) in
    Contact nw depth (if first then on_cap else on_poly) (if first then on_poly else on_cap) in
  let cs := map contact (filter keep clipped) in
  Ok (negb (length cs =? 0)%nat, cs).
(** SATAlgorithm.cpp:164-318 testCollisionCapsuleVsConvexPolyhedron; [tc] and [tp] place the capsule and the polyhedron. *)
Definition sat_capsule (eps big : R) (fuel : nat) (report first : bool) (hh r : R) (p : solid) (tc tp : transform) : res (bool * list contact) :=
  let t := tr_mul (tr_inverse tc) tp in
  let* faces := cap_faces eps hh r p t (seq 0 (length (so_faces p))) (big, CapEdge vzero vzero, vzero) in
  match faces with
  | None => Ok (false, [])
  | Some best =>
      let* all := cap_edges eps big hh r p t (evens (length (st_edges (so_edges p)))) best in
      match all with
      | None => Ok (false, [])
      | Some (depth, what, axis) =>
          let t' := tr_inverse t in
          let a := tr_point t' (seg_a hh) in
          let b := tr_point t' (seg_b hh) in
          let nw := quat_vec (t_rot tc) axis in
          let nw := if first then vneg nw else nw in
          if report then
            match what with
            | CapFace f => cap_face_contacts fuel r p f depth t nw axis a b first
            | CapEdge v1 v2 =>
                let '(c1, c2) := closest_segments eps a b v1 v2 in
                let on_cap := vsub (tr_point t c1) (vscale r axis) in
                Ok (true, [Contact nw depth (if first then on_cap else c2) (if first then c2 else on_cap)])
            end
          else Ok (true, [])
      end
  end.
