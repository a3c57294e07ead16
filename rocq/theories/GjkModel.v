(** The GJK algorithm for two convex shapes with margins, with its simplex, and the test of a sphere against a convex polyhedron,
    in exact arithmetic.  [eps] stands for MACHINE_EPSILON and [big] for DECIMAL_LARGEST.  One pair of a batch is modelled; the
    smoothing of the contacts of triangles (TriangleShape::computeSmoothTriangleMeshContact) is not modelled, so neither shape is a
    triangle. *)
From Coq Require Import List Bool Arith.
From Verif Require Import Base VecModel ShapeModel NarrowModel.
Import ListNotations.
Local Open Scope R_scope.

(** ** The simplex *)

(** VoronoiSimplex.h:57-70: one entry of the arrays mPoints, mSuppPointsA and mSuppPointsB. *)
Record spoint : Type := SP { sp_w : vec3; sp_a : vec3; sp_b : vec3 }.
(** VoronoiSimplex.h:54-85.  The flag mRecomputeClosestPoint is left out: a point is added before every recomputation. *)
Record simplex : Type := Simplex { sx_points : list spoint; sx_close : vec3; sx_a : vec3; sx_b : vec3; sx_valid : bool }.
(** VoronoiSimplex.cpp:33. *)
Definition voronoi_eps : R := 1 / 10000.

(** VoronoiSimplex.cpp:36-38; Vector3 is zero by default. *)
Definition simplex_empty : simplex := Simplex [] vzero vzero vzero false.
(** VoronoiSimplex.cpp:49-58 addPoint. *)
Definition simplex_add (s : simplex) (p : spoint) : simplex :=
  Simplex (sx_points s ++ [p]) (sx_close s) (sx_a s) (sx_b s) (sx_valid s).
(** VoronoiSimplex.cpp:61-67 removePoint: the last point takes the place. *)
Definition remove_point (i : nat) (l : list spoint) : list spoint :=
  let n := (length l - 1)%nat in
  firstn n (firstn i l ++ nth n l (SP vzero vzero vzero) :: skipn (S i) l).
(** VoronoiSimplex.cpp:76-89 reduceSimplex. *)
Definition drop_unused (bits i : nat) (l : list spoint) : list spoint :=
  if (S i <=? length l)%nat && negb (Nat.testbit bits i) then remove_point i l else l.
Definition reduce (bits : nat) (l : list spoint) : list spoint :=
  drop_unused bits 0 (drop_unused bits 1 (drop_unused bits 2 (drop_unused bits 3 l))).
(** VoronoiSimplex.cpp:92-107 isPointInSimplex. *)
Definition in_simplex (s : simplex) (w : vec3) : bool :=
  existsb (fun p => rle (vlen2 (vsub (sp_w p) w)) voronoi_eps) (sx_points s).
(** VoronoiSimplex.cpp:126-148 isAffinelyDependent. *)
Definition dependent (s : simplex) : bool :=
  match map sp_w (sx_points s) with
  | [a; b] => rle (vlen2 (vsub b a)) voronoi_eps
  | [a; b; c] => rle (vlen2 (vcross (vsub b a) (vsub c a))) voronoi_eps
  | [a; b; c; d] => rle (Rabs (vdot (vsub b a) (vcross (vsub c a) (vsub d a)))) voronoi_eps
  | _ => false
  end.
(** VoronoiSimplex.cpp:301-331 computeClosestPointOnSegment: the used points as bits and the fraction. *)
Definition closest_seg (a b : vec3) : nat * R :=
  let ap := vneg a in let ab := vsub b a in
  let d := vdot ap ab in
  if rlt 0 d then
    let l := vlen2 ab in
    if rlt d l then (3%nat, d / l) else (2%nat, 1)
  else (1%nat, 0).
(** VoronoiSimplex.cpp:336-452 computeClosestPointOnTriangle: the used points as bits and the barycentric coordinates. *)
Definition closest_tri (a b c : vec3) : nat * (R * R * R) :=
  let ab := vsub b a in let ac := vsub c a in
  let ap := vneg a in
  let d1 := vdot ab ap in let d2 := vdot ac ap in
  if rle d1 0 && rle d2 0 then (1%nat, (1, 0, 0)) else
  let bp := vneg b in
  let d3 := vdot ab bp in let d4 := vdot ac bp in
  if rle 0 d3 && rle d4 d3 then (2%nat, (0, 1, 0)) else
  let vc := d1 * d4 - d3 * d2 in
  if rle vc 0 && rle 0 d1 && rle d3 0 then let v := d1 / (d1 - d3) in (3%nat, (1 - v, v, 0)) else
  let cp := vneg c in
  let d5 := vdot ab cp in let d6 := vdot ac cp in
  if rle 0 d6 && rle d5 d6 then (4%nat, (0, 0, 1)) else
  let vb := d5 * d2 - d1 * d6 in
  if rle vb 0 && rle 0 d2 && rle d6 0 then let w := d2 / (d2 - d6) in (5%nat, (1 - w, 0, w)) else
  let va := d3 * d6 - d5 * d4 in
  if rle va 0 && rle 0 (d4 - d3) && rle 0 (d5 - d6) then
    let w := (d4 - d3) / ((d4 - d3) + (d5 - d6)) in (6%nat, (0, 1 - w, w))
  else
    let denom := 1 / (va + vb + vc) in
    let v := vb * denom in let w := vc * denom in
    (7%nat, (1 - v - w, v, w)).
(** VoronoiSimplex.cpp:591-610 testOriginOutsideOfPlane; [None] for the answer -1. *)
Definition outside_plane (a b c d : vec3) : option bool :=
  let n := vcross (vsub b a) (vsub c a) in
  let signp := vdot (vneg a) n in
  let signd := vdot (vsub d a) n in
  if rlt (signd * signd) (voronoi_eps * voronoi_eps) then None else Some (rlt (signp * signd) 0).
(** VoronoiSimplex.cpp:572-583 mapTriangleUsedVerticesToTetrahedron. *)
Definition map_bits (bits i j k : nat) : nat :=
  Nat.lor (Nat.lor (if Nat.testbit bits 0 then Nat.shiftl 1 i else 0) (if Nat.testbit bits 1 then Nat.shiftl 1 j else 0))
          (if Nat.testbit bits 2 then Nat.shiftl 1 k else 0).
(** A point given by the coordinates in a triangle (VoronoiSimplex.cpp:500-501, 520-521, 540-541, 560-561). *)
Definition combine3 (u : R * R * R) (a b c : vec3) : vec3 :=
  let '(x, y, z) := u in vadd (vadd (vscale x a) (vscale y b)) (vscale z c).
(** VoronoiSimplex.cpp:495-515 (and 517-567): one face of the tetrahedron.  The state is (distance, bits, coordinates); [place]
    puts the coordinates in the face to their places in the tetrahedron. *)
Definition try_face (out : bool) (a b c : vec3) (i j k : nat) (place : R * R * R -> R * R * R * R)
  (st : R * nat * (R * R * R * R)) : R * nat * (R * R * R * R) :=
  if out then
    let '(bits, u) := closest_tri a b c in
    let q := vlen2 (combine3 u a b c) in
    if rlt q (fst (fst st)) then (q, map_bits bits i j k, place u) else st
  else st.
(** VoronoiSimplex.cpp:456-570 computeClosestPointOnTetrahedron: [None] if degenerate.  Inside the tetrahedron all four points are
    used and the coordinates are zero.  The last face does not store its distance, which nothing reads. *)
Definition closest_tetra (big : R) (a b c d : vec3) : option (nat * (R * R * R * R)) :=
  match outside_plane a b c d, outside_plane a c d b, outside_plane a d b c, outside_plane b d c a with
  | Some abc, Some acd, Some adb, Some bdc =>
      let st := (big, 15%nat, (0, 0, 0, 0)) in
      let st := try_face abc a b c 0 1 2 (fun '(x, y, z) => (x, y, z, 0)) st in
      let st := try_face acd a c d 0 2 3 (fun '(x, y, z) => (x, 0, y, z)) st in
      let st := try_face adb a d b 0 3 1 (fun '(x, y, z) => (x, z, 0, y)) st in
      let st := try_face bdc b d c 1 3 2 (fun '(x, y, z) => (0, x, z, y)) st in
      Some (snd (fst st), snd st)
  | _, _, _, _ => None
  end.
(** VoronoiSimplex.h:204-208 checkClosestPointValid. *)
Definition check_valid (u : R * R * R * R) : bool :=
  let '(x, y, z, t) := u in rle 0 x && rle 0 y && rle 0 z && rle 0 t.
(** VoronoiSimplex.cpp:164-299 recomputeClosestPoint. *)
Definition recompute (big : R) (s : simplex) : simplex :=
  match sx_points s with
  | [p] => Simplex [p] (sp_w p) (sp_a p) (sp_b p) (check_valid (1, 0, 0, 0))
  | [p; q] =>
      let '(bits, t) := closest_seg (sp_w p) (sp_w q) in
      let ca := vadd (sp_a p) (vscale t (vsub (sp_a q) (sp_a p))) in
      let cb := vadd (sp_b p) (vscale t (vsub (sp_b q) (sp_b p))) in
      Simplex (reduce bits [p; q]) (vsub ca cb) ca cb (check_valid (1 - t, t, 0, 0))
  | [p; q; r] =>
      let '(bits, u) := closest_tri (sp_w p) (sp_w q) (sp_w r) in
      let ca := combine3 u (sp_a p) (sp_a q) (sp_a r) in
      let cb := combine3 u (sp_b p) (sp_b q) (sp_b r) in
      Simplex (reduce bits [p; q; r]) (vsub ca cb) ca cb (check_valid (u, 0))
  | [p; q; r; t] =>
      match closest_tetra big (sp_w p) (sp_w q) (sp_w r) (sp_w t) with
      | Some (bits, (x, y, z, k)) =>
          let ca := vadd (vadd (vadd (vscale x (sp_a p)) (vscale y (sp_a q))) (vscale z (sp_a r))) (vscale k (sp_a t)) in
          let cb := vadd (vadd (vadd (vscale x (sp_b p)) (vscale y (sp_b q))) (vscale z (sp_b r))) (vscale k (sp_b t)) in
          Simplex (reduce bits [p; q; r; t]) (vsub ca cb) ca cb (check_valid (x, y, z, k))
      | None => Simplex (sx_points s) (sx_close s) (sx_a s) (sx_b s) false
      end
  | _ => Simplex (sx_points s) (sx_close s) (sx_a s) (sx_b s) false
  end.
(** VoronoiSimplex.h:153-155 isFull. *)
Definition full (s : simplex) : bool := (length (sx_points s) =? 4)%nat.
(** VoronoiSimplex.cpp:618-631 getMaxLengthSquareOfAPoint. *)
Definition max_len2 (s : simplex) : R :=
  fold_left (fun m p => if rlt m (vlen2 (sp_w p)) then vlen2 (sp_w p) else m) (sx_points s) 0.

(** ** The loop *)

(** GJKAlgorithm.h:45-46. *)
Definition rel_error2 : R := (1 / 1000) * (1 / 1000).
(** The answers of the loop: separated along an axis; contactFound with the simplex, v and distSquare; left with the same. *)
Inductive gjk_end : Type :=
| Apart (v : vec3)
| Found (s : simplex) (v : vec3) (d2 : R)
| Ended (s : simplex) (v : vec3) (d2 : R).
(** GJKAlgorithm.cpp:112-185.  [supp v] computes the two support points for the direction [v] in the space of the first shape
    (lines 115-119).  Line 180 copies the closest point, which is already in v. *)
Fixpoint gjk_loop (eps big margin : R) (supp : vec3 -> vec3 * vec3) (fuel : nat) (s : simplex) (v : vec3) (d2 : R) : res gjk_end :=
  match fuel with
  | O => Fuel
  | S fuel =>
      let (a, b) := supp v in
      let w := vsub a b in
      let vw := vdot v w in
      if rlt 0 vw && rlt (d2 * (margin * margin)) (vw * vw) then Ok (Apart v)
      else if in_simplex s w || rle (d2 - vw) (d2 * rel_error2) then Ok (Found s v d2)
      else
        let s1 := simplex_add s (SP w a b) in
        if dependent s1 then Ok (Found s1 v d2)
        else
          let s2 := recompute big s1 in
          let v2 := sx_close s2 in
          if negb (sx_valid s2) then Ok (Found s2 v2 d2)
          else
            let n2 := vlen2 v2 in
            if rle (d2 - n2) (eps * d2) then Ok (Found s2 v2 n2)
            else if negb (full s2) && rlt (eps * max_len2 s2) n2 then gjk_loop eps big margin supp fuel s2 v2 n2
            else Ok (Ended s2 v2 n2)
  end.

(** GJKAlgorithm.h:73-77 GJKResult. *)
Inductive gjk_result : Type := Separated | InMargin | Interpenetrate.
(** A convex shape without margin: ConvexShape.h:55 getLocalSupportPointWithoutMargin, and its margin. *)
Record cshape : Type := CShape { cs_support : vec3 -> vec3; cs_margin : R }.
(** GJKAlgorithm.cpp:72-84, 115-117. *)
Definition gjk_supports (s1 s2 : cshape) (t1 t2 : transform) (v : vec3) : vec3 * vec3 :=
  let to1 := tr_mul (tr_inverse t1) t2 in
  let rot2 := quat_mul (quat_inverse (t_rot t2)) (t_rot t1) in
  (cs_support s1 (vneg v), tr_point to1 (cs_support s2 (quat_vec rot2 v))).
(** GJKAlgorithm.cpp:191-236: the answer, the contact, and the axis to be cached. *)
Definition gjk_finish (eps : R) (report : bool) (s1 s2 : cshape) (t1 t2 : transform) (e : gjk_end) :
  gjk_result * list contact * option vec3 :=
  match e with
  | Apart v => (Separated, [], Some v)
  | Ended _ _ _ => (Interpenetrate, [], None)
  | Found s v d2 =>
      if rlt eps d2 then
        let dist := sqrt d2 in
        let pa := vsub (sx_a s) (vscale (cs_margin s1 / dist) v) in
        let pb := tr_point (tr_inverse (tr_mul (tr_inverse t1) t2)) (vadd (sx_b s) (vscale (cs_margin s2 / dist) v)) in
        let normal := quat_vec (t_rot t1) (vneg (vunit eps v)) in
        let depth := cs_margin s1 + cs_margin s2 - dist in
        if rle depth 0 then (Separated, [], None)
        else if rlt (vlen2 normal) eps then (Separated, [], None)
        else (InMargin, if report then [Contact normal depth pa pb] else [], None)
      else (Interpenetrate, [], None)
  end.
(** GJKAlgorithm.cpp:49-238 testCollision; [cache] is the axis of the last frame if GJK was used (lines 92-100). *)
Definition gjk (eps big : R) (fuel : nat) (report : bool) (s1 s2 : cshape) (t1 t2 : transform) (cache : option vec3) :
  res (gjk_result * list contact * option vec3) :=
  let v := match cache with Some v => v | None => V3 0 1 0 end in
  let* e := gjk_loop eps big (cs_margin s1 + cs_margin s2) (gjk_supports s1 s2 t1 t2) fuel simplex_empty v big in
  Ok (gjk_finish eps report s1 s2 t1 t2 e).

(** ** Sphere against polyhedron *)

(** ConvexPolyhedronShape.h:60-90: the support function, and for each face the normal and the first vertex. *)
Record polyhedron : Type := Polyhedron { po_support : vec3 -> vec3; po_faces : list (vec3 * vec3) }.
(** SATAlgorithm.cpp:146-165 computePolyhedronFaceVsSpherePenetrationDepth. *)
Definition sphere_face_depth (r : R) (c : vec3) (f : vec3 * vec3) : R := vdot (vsub (snd f) c) (fst f) + r.
(** SATAlgorithm.cpp:94-113: the loop over the faces; [None] if a separating axis is found.  The face with the index zero is
    the answer if no depth is below DECIMAL_LARGEST. *)
Fixpoint sphere_faces (r : R) (c : vec3) (fs : list (vec3 * vec3)) (best : R * vec3) : option (R * vec3) :=
  match fs with
  | [] => Some best
  | f :: rest =>
      let p := sphere_face_depth r c f in
      if rle p 0 then None else sphere_faces r c rest (if rlt p (fst best) then (p, fst f) else best)
  end.
(** SATAlgorithm.cpp:58-143 testCollisionSphereVsConvexPolyhedron; [first]: the sphere is the first shape. *)
Definition sat_sphere (big : R) (report first : bool) (r : R) (ts : transform) (po : polyhedron) (tp : transform) : bool * list contact :=
  let c := t_pos (tr_mul (tr_inverse tp) ts) in
  match sphere_faces r c (po_faces po) (big, fst (nth 0 (po_faces po) (vzero, vzero))) with
  | None => (false, [])
  | Some (depth, n) =>
      let nw := quat_vec (t_rot tp) n in
      let ls := quat_vec (t_rot (tr_inverse ts)) (vscale r (vneg nw)) in
      let lp := vadd c (vscale (depth - r) n) in
      (true, if report then [Contact (if first then vneg nw else nw) depth (if first then ls else lp) (if first then lp else ls)] else [])
  end.
(** SphereVsConvexPolyhedronAlgorithm.cpp:38-103 testCollision. *)
Definition sphere_polyhedron (eps big : R) (fuel : nat) (report first : bool) (r : R) (ts : transform) (po : polyhedron) (tp : transform)
  (cache : option vec3) : res (bool * list contact) :=
  let sphere := CShape sphere_support0 r in
  let poly := CShape (po_support po) 0 in
  let* x := (if first then gjk eps big fuel report sphere poly ts tp cache else gjk eps big fuel report poly sphere tp ts cache) in
  match fst (fst x) with
  | Separated => Ok (false, [])
  | InMargin => Ok (true, snd (fst x))
  | Interpenetrate => Ok (sat_sphere big report first r ts po tp)
  end.
