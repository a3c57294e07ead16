(** The separating axis test of two convex polyhedra (src/collision/narrowphase/SAT/SATAlgorithm.cpp), in exact arithmetic.
    [eps] stands for MACHINE_EPSILON and [big] for DECIMAL_LARGEST.  One pair of a batch is modelled.  Reading an index out of range and a
    variable that was not set are undefined.  Left out: the smoothing of contacts of triangles, which follows the test (TriSmoothModel.v);
    the sizes of the arrays reserved for the clipping. *)
From Coq Require Import List Bool Arith.
From Verif Require Import Base VecModel GeomModel ShapeModel NarrowModel HalfEdgeModel.
Import ListNotations.
Local Open Scope R_scope.

(** ConvexPolyhedronShape.h:45-95: vertices, faces (their vertices), half-edge structure, normals of the faces, centroid, support function;
    whether it is a triangle (CollisionShape::getName). *)
Record solid : Type := Solid {
  so_verts : list vec3; so_faces : list (list nat); so_edges : structure; so_normals : list vec3;
  so_centroid : vec3; so_support : vec3 -> vec3; so_triangle : bool }.
Definition vert (p : solid) (i : nat) : res vec3 := rd (nth_error (so_verts p) i).
Definition half_edge (p : solid) (i : nat) : res edge := rd (nth_error (st_edges (so_edges p)) i).
Definition normal (p : solid) (f : nat) : res vec3 := rd (nth_error (so_normals p) f).

(** BoxShape.h:192-225, PhysicsCommon.cpp:73-109. *)
Definition box_face_list : list (list nat) := [[0;1;2;3];[1;5;6;2];[4;7;6;5];[4;0;3;7];[4;5;1;0];[2;6;7;3]]%nat.
Definition box_solid (h : vec3) : res solid :=
  let* s := compute_half_edges 8 box_face_list in
  Ok (Solid [V3 (- vx h) (- vy h) (vz h); V3 (vx h) (- vy h) (vz h); V3 (vx h) (vy h) (vz h); V3 (- vx h) (vy h) (vz h);
             V3 (- vx h) (- vy h) (- vz h); V3 (vx h) (- vy h) (- vz h); V3 (vx h) (vy h) (- vz h); V3 (- vx h) (vy h) (- vz h)]
            box_face_list s [V3 0 0 1; V3 1 0 0; V3 0 0 (-1); V3 (-1) 0 0; V3 0 (-1) 0; V3 0 1 0] vzero (box_support0 h) false).

(** OverlappingPairs.h:57-92 LastFrameCollisionInfo; the indices are kept in 8 bits. *)
Record last_frame : Type := LastFrame {
  lf_valid : bool; lf_colliding : bool; lf_sat : bool; lf_face1 : bool; lf_face2 : bool; lf_face : nat; lf_edge1 : nat; lf_edge2 : nat }.
Definition u8 (n : nat) : nat := Nat.modulo n 256.
Definition keep_face (first : bool) (f : nat) (l : last_frame) : last_frame :=
  LastFrame (lf_valid l) (lf_colliding l) (lf_sat l) first (negb first) (u8 f) (lf_edge1 l) (lf_edge2 l).
Definition keep_edges (i j : nat) (l : last_frame) : last_frame :=
  LastFrame (lf_valid l) (lf_colliding l) (lf_sat l) false false (lf_face l) (u8 i) (u8 j).

(** SATAlgorithm.cpp:1071-1097 testSingleFaceDirectionPolyhedronVsPolyhedron. *)
Definition face_depth (p1 p2 : solid) (t12 : transform) (f : nat) : res R :=
  let* vs := rd (nth_error (so_faces p1) f) in
  let* n := normal p1 f in
  let n2 := quat_vec (t_rot t12) n in
  let s := so_support p2 (vneg n2) in
  let* i := rd (nth_error vs 0) in
  let* v := vert p1 i in
  Ok (vdot (vsub (tr_point t12 v) s) n2).
(** SATAlgorithm.cpp:1100-1131 testFacesDirectionPolyhedronVsPolyhedron; the index is not set if no depth is below DECIMAL_LARGEST. *)
Fixpoint faces_loop (p1 p2 : solid) (t12 : transform) (fs : list nat) (best : R * option nat) : res (R * option nat) :=
  match fs with
  | [] => Ok best
  | f :: rest =>
      let* d := face_depth p1 p2 t12 f in
      if rle d 0 then Ok (d, Some f) else faces_loop p1 p2 t12 rest (if rlt d (fst best) then (d, Some f) else best)
  end.
Definition faces_depth (big : R) (p1 p2 : solid) (t12 : transform) : res (R * option nat) :=
  faces_loop p1 p2 t12 (seq 0 (length (so_faces p1))) (big, None).

(** SATAlgorithm.cpp:1176-1191 testGaussMapArcsIntersect. *)
Definition arcs_intersect (a b c d ba dc : vec3) : bool :=
  let cba := vdot c ba in
  let dba := vdot d ba in
  let adc := vdot a dc in
  let bdc := vdot b dc in
  rlt (cba * dba) 0 && rlt (adc * bdc) 0 && rlt 0 (cba * bdc).
(** SATAlgorithm.cpp:1135-1167 testEdgesBuildMinkowskiFace. *)
Definition minkowski_face (p1 : solid) (e1 : edge) (p2 : solid) (e2 : edge) (t12 : transform) : res bool :=
  let* w1 := let* i := rd (e_twin e1) in half_edge p1 i in
  let* w2 := let* i := rd (e_twin e2) in half_edge p2 i in
  let* a := normal p1 (e_face e1) in
  let* b := normal p1 (e_face w1) in
  let* c := normal p2 (e_face e2) in
  let* d := normal p2 (e_face w2) in
  let* u1 := vert p1 (e_vertex e1) in
  let* u2 := vert p1 (e_vertex w1) in
  let* v1 := vert p2 (e_vertex e2) in
  let* v2 := vert p2 (e_vertex w2) in
  let r := quat_vec (t_rot t12) in
  Ok (arcs_intersect (r a) (r b) (vneg c) (vneg d) (r (vsub u1 u2)) (vsub v1 v2)).
(** SATAlgorithm.cpp:1021-1067 computeDistanceBetweenEdges; for parallel edges the axis stays as it was (zero). *)
Definition edges_depth (eps big : R) (a1 a2 c1 c2 d1 d2 : vec3) (triangle1 : bool) : R * vec3 :=
  if are_parallel d1 d2 then (big, vzero)
  else
    let axis := vunit eps (vcross d1 d2) in
    let dot := if triangle1 then vdot axis (vsub a2 c2) else vdot axis (vsub c1 a1) in
    let axis := if rlt 0 dot then vneg axis else axis in
    (- vdot axis (vsub a2 a1), axis).
(** SATAlgorithm.cpp:744-760, 610-618: the ends of an edge, the first polyhedron in the space of the second. *)
Definition edge_ends (p : solid) (e : edge) : res (vec3 * vec3) :=
  let* a := vert p (e_vertex e) in
  let* n := let* i := rd (e_next e) in half_edge p i in
  let* b := vert p (e_vertex n) in
  Ok (a, b).
(** An axis that is the cross product of two edges: depth, axis, ends of both edges. *)
Record edge_axis : Type := EdgeAxis { ea_depth : R; ea_axis : vec3; ea_a1 : vec3; ea_b1 : vec3; ea_a2 : vec3; ea_b2 : vec3 }.
(** SATAlgorithm.cpp:744-771 and 607-631: [None] if the edges do not build a face of the Minkowski difference. *)
Definition edge_pair (eps big : R) (p1 p2 : solid) (t12 : transform) (i j : nat) : res (option edge_axis) :=
  let* e1 := half_edge p1 i in
  let* (a, b) := edge_ends p1 e1 in
  let a1 := tr_point t12 a in
  let b1 := tr_point t12 b in
  let* e2 := half_edge p2 j in
  let* (a2, b2) := edge_ends p2 e2 in
  let* m := minkowski_face p1 e1 p2 e2 t12 in
  if m : bool then
    let '(depth, axis) := edges_depth eps big a1 a2 (tr_point t12 (so_centroid p1)) (so_centroid p2) (vsub b1 a1) (vsub b2 a2) (so_triangle p1) in
    Ok (Some (EdgeAxis depth axis a1 b1 a2 b2))
  else Ok None.

(** ** Contacts between faces *)

(** SATAlgorithm.cpp:949-989: the clipping of the polygon with the sides of the reference face. *)
Fixpoint clip_loop (fuel : nat) (p : solid) (axis : vec3) (first cur : nat) (v1 : vec3) (poly : list vec3) : res (list vec3) :=
  match fuel with
  | O => Fuel
  | S fuel =>
      let* e := half_edge p cur in
      let* next := rd (e_next e) in
      let* ne := half_edge p next in
      let* v2 := vert p (e_vertex ne) in
      let* out := clip_polygon poly v1 (vcross axis (vsub v2 v1)) in
      if (next =? first)%nat || (length out =? 0)%nat then Ok out else clip_loop fuel p axis first next v2 out
  end.
(** ConvexPolyhedronShape.h:102-121 findMostAntiParallelFace. *)
Fixpoint anti_parallel_loop (d : vec3) (ns : list vec3) (i : nat) (best : R * nat) : nat :=
  match ns with
  | [] => snd best
  | n :: rest => anti_parallel_loop d rest (S i) (if rlt (vdot n d) (fst best) then (vdot n d, i) else best)
  end.
Definition most_anti_parallel (big : R) (p : solid) (d : vec3) : nat := anti_parallel_loop d (so_normals p) 0 (big, O).
Fixpoint verts (p : solid) (is : list nat) : res (list vec3) :=
  match is with [] => Ok [] | i :: rest => let* v := vert p i in let* r := verts p rest in Ok (v :: r) end.
(** SATAlgorithm.cpp:889-1018 computePolyhedronVsPolyhedronFaceContactPoints; [first]: the face [f] belongs to the first polyhedron. *)
Definition face_contacts (big : R) (fuel : nat) (report first : bool) (p1 p2 : solid) (t1 t2 t12 t21 : transform) (f : nat) :
  res (bool * list contact) :=
  let rp := if first then p1 else p2 in
  let ip := if first then p2 else p1 in
  let r2i := if first then t12 else t21 in
  let i2r := if first then t21 else t12 in
  let* axis := normal rp f in
  let nw := if first then quat_vec (t_rot t1) axis else vneg (quat_vec (t_rot t2) axis) in
  let* start := rd (nth_error (st_faces (so_edges rp)) f) in
  let* vs := rd (nth_error (so_faces ip) (most_anti_parallel big ip (quat_vec (t_rot r2i) axis))) in
  let* poly := verts ip vs in
  let* e := half_edge rp start in
  let* v := vert rp (e_vertex e) in
  let* out := clip_loop fuel rp axis start start v (map (tr_point i2r) poly) in
  let depth q := vdot (vsub v q) axis in
  let below := filter (fun q => rlt 0 (depth q)) out in
  Ok (negb (length below =? 0)%nat,
      if report then map (fun q =>
        let on_i := tr_point r2i q in
        let on_r := project_on_plane q axis v in
        Contact nw (depth q) (if first then on_r else on_i) (if first then on_i else on_r)) below
      else []).

(** ** The test *)

(** The result: whether the shapes collide, the contacts, the data for the next frame. *)
Definition sat_result : Type := bool * list contact * last_frame.
Definition edge_contact (eps : R) (report : bool) (t2 t21 : transform) (x : edge_axis) : list contact :=
  let '(c1, c2) := closest_segments eps (ea_a1 x) (ea_b1 x) (ea_a2 x) (ea_b2 x) in
  if report then [Contact (quat_vec (t_rot t2) (ea_axis x)) (ea_depth x) (tr_point t21 c1) c2] else [].
(** SATAlgorithm.cpp:648-655: the closest points fall onto the other edge. *)
Definition still_crossing (eps : R) (x : edge_axis) : bool :=
  let '(c1, c2) := closest_segments eps (ea_a1 x) (ea_b1 x) (ea_a2 x) (ea_b2 x) in
  let d1 := vsub (ea_b1 x) (ea_a1 x) in
  let d2 := vsub (ea_b2 x) (ea_a2 x) in
  let k1 := vdot (vsub c1 (ea_a2 x)) d2 / vlen2 d2 in
  let k2 := vdot (vsub c2 (ea_a1 x)) d1 / vlen2 d1 in
  rle 0 k1 && rle k1 1 && rle 0 k2 && rle k2 1.
(** SATAlgorithm.cpp:515-687: the axis of the last frame; [None]: the whole test has to be run.  [clip]: mClipWithPreviousAxisIfStillColliding. *)
Definition sat_previous (eps big : R) (fuel : nat) (clip report : bool) (p1 p2 : solid) (t1 t2 t12 t21 : transform) (l : last_frame) : res (option sat_result) :=
  if negb (lf_valid l && lf_sat l) then Ok None
  else if lf_face1 l || lf_face2 l then
    let first := lf_face1 l in
    let* d := if first then face_depth p1 p2 t12 (lf_face l) else face_depth p2 p1 t21 (lf_face l) in
    if negb (lf_colliding l) && rle d 0 then Ok (Some (false, [], l))
    else if lf_colliding l && clip && rlt 0 d then
      let* (found, cs) := face_contacts big fuel report first p1 p2 t1 t2 t12 t21 (lf_face l) in
      Ok (if found : bool then Some (true, cs, keep_face first (lf_face l) l) else None)
    else Ok None
  else
    let* x := edge_pair eps big p1 p2 t12 (lf_edge1 l) (lf_edge2 l) in
    match x with
    | None => Ok None
    | Some x =>
        if negb (lf_colliding l) && rle (ea_depth x) 0 then Ok (Some (false, [], l))
        else if lf_colliding l && clip && rlt 0 (ea_depth x) && rlt (ea_depth x) big && still_crossing eps x
        then Ok (Some (true, edge_contact eps report t2 t21 x, l))
        else Ok None
    end.

(** SATAlgorithm.cpp:43-44. *)
Definition rel_tolerance : R := 1002 / 1000.
Definition abs_tolerance : R := 5 / 10000.
(** The smallest depth so far: a face (of the first polyhedron or not), or two edges. *)
Inductive best_axis : Type :=
| BestFace (first : bool) (f : nat) (d : R)
| BestEdges (i j : nat) (x : edge_axis).
Definition best_depth (b : best_axis) : R := match b with BestFace _ _ d => d | BestEdges _ _ x => ea_depth x end.
(** SATAlgorithm.cpp:741-823: the loops over the edges (every second half-edge); [inl]: a separating axis. *)
Fixpoint edges_loop (eps big : R) (p1 p2 : solid) (t12 : transform) (ijs : list (nat * nat)) (best : best_axis) : res ((nat * nat) + best_axis) :=
  match ijs with
  | [] => Ok (inr best)
  | (i, j) :: rest =>
      let* x := edge_pair eps big p1 p2 t12 i j in
      match x with
      | None => edges_loop eps big p1 p2 t12 rest best
      | Some x =>
          let d := ea_depth x in
          if rle d 0 then Ok (inl (i, j))
          else
            let better := match best with
                          | BestFace _ _ m => rlt (d * rel_tolerance + abs_tolerance) m
                          | BestEdges _ _ y => rlt d (ea_depth y)
                          end in
            edges_loop eps big p1 p2 t12 rest (if better then BestEdges i j x else best)
      end
  end.
Definition evens (n : nat) : list nat := filter Nat.even (seq 0 n).
(** SATAlgorithm.cpp:689-886: the whole test. *)
Definition sat_full (eps big : R) (fuel : nat) (report : bool) (p1 p2 : solid) (t1 t2 t12 t21 : transform) (l : last_frame) : res sat_result :=
  let* (d1, f1) := faces_depth big p1 p2 t12 in
  if rle d1 0 then let* f := rd f1 in Ok (false, [], keep_face true f l)
  else
    let* (d2, f2) := faces_depth big p2 p1 t21 in
    if rle d2 0 then let* f := rd f2 in Ok (false, [], keep_face false f l)
    else
      let first := rlt d1 (d2 * rel_tolerance + abs_tolerance) in
      let* f := rd (if first then f1 else f2) in
      let* r := edges_loop eps big p1 p2 t12 (list_prod (evens (length (st_edges (so_edges p1)))) (evens (length (st_edges (so_edges p2)))))
        (BestFace first f (Rmin d1 d2)) in
      match r with
      | inl (i, j) => Ok (false, [], keep_edges i j l)
      | inr (BestFace first f _) =>
          let* (found, cs) := face_contacts big fuel report first p1 p2 t1 t2 t12 t21 f in
          Ok (found, cs, keep_face first f l)
      | inr (BestEdges i j x) => Ok (true, edge_contact eps report t2 t21 x, keep_edges i j l)
      end.
(** SATAlgorithm.cpp:485-886 testCollisionConvexPolyhedronVsConvexPolyhedron, one pair, and
    ConvexPolyhedronVsConvexPolyhedronAlgorithm.cpp:53-59. *)
Definition sat_polyhedra (eps big : R) (fuel : nat) (clip report : bool) (p1 p2 : solid) (t1 t2 : transform) (l : last_frame) : res sat_result :=
  let t12 := tr_mul (tr_inverse t2) t1 in
  let t21 := tr_inverse t12 in
  let* o := sat_previous eps big fuel clip report p1 p2 t1 t2 t12 t21 l in
  let* (r, l) := match o with Some r => Ok r | None => sat_full eps big fuel report p1 p2 t1 t2 t12 t21 l end in
  Ok (r, LastFrame (lf_valid l) (lf_colliding l) true (lf_face1 l) (lf_face2 l) (lf_face l) (lf_edge1 l) (lf_edge2 l)).

(** CollisionDetectionSystem.cpp:1205-1216: what is kept for the next frame.  OverlappingPairs.h:86-90: the data of a new pair. *)
Definition kept (b : bool) (l : last_frame) : last_frame := LastFrame true b (lf_sat l) (lf_face1 l) (lf_face2 l) (lf_face l) (lf_edge1 l) (lf_edge2 l).
Definition fresh : last_frame := LastFrame false false false false false 0 0 0.
(** The tests of a pair in successive frames. *)
Fixpoint sat_frames (eps big : R) (fuel : nat) (clip report : bool) (p1 p2 : solid) (ts : list (transform * transform)) (l : last_frame) : res (list (bool * list contact)) :=
  match ts with
  | [] => Ok []
  | (t1, t2) :: rest =>
      let* (r, l1) := sat_polyhedra eps big fuel clip report p1 p2 t1 t2 l in
      let* rs := sat_frames eps big fuel clip report p1 p2 rest (kept (fst r) l1) in
      Ok (r :: rs)
  end.
