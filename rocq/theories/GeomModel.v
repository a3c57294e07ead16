(** The geometric functions of include/reactphysics3d/mathematics/mathematics_functions.h, in exact arithmetic.
    [eps] stands for MACHINE_EPSILON. *)
From Verif Require Import Base VecModel.
From Coq Require Import List.
Import ListNotations.
Local Open Scope R_scope.

(** mathematics_functions.h:55-58 clamp. *)
Definition clampR (v lo hi : R) : R := Rmin (Rmax v lo) hi.
(** mathematics_functions.h:71-73 sameSign. *)
Definition same_sign (a b : R) : bool := rle 0 (a * b).
(** mathematics_functions.h:76-78 areParallelVectors. *)
Definition are_parallel (a b : vec3) : bool := rlt (vlen2 (vcross a b)) (/ 100000).
(** mathematics_functions.h:88-93 clamp of a vector. *)
Definition clamp_vec (eps : R) (v : vec3) (maxlen : R) : vec3 :=
  if rlt (maxlen * maxlen) (vlen2 v) then vscale maxlen (vunit eps v) else v.

(** mathematics_functions.h:96-118 computeClosestPointOnSegment. *)
Definition closest_on_segment (eps : R) (a b c : vec3) : vec3 :=
  let ab := vsub b a in
  let l2 := vlen2 ab in
  if rlt l2 eps then a
  else
    let t := vdot (vsub c a) ab / l2 in
    let t := if rlt t 0 then 0 else t in
    let t := if rlt 1 t then 1 else t in
    vadd a (vscale t ab).

(** mathematics_functions.h:123-198 computeClosestPointBetweenTwoSegments: the parameters s and t, then the points. *)
Definition segments_params (eps : R) (a1 b1 a2 b2 : vec3) : R * R :=
  let d1 := vsub b1 a1 in
  let d2 := vsub b2 a2 in
  let r := vsub a1 a2 in
  let a := vlen2 d1 in
  let e := vlen2 d2 in
  let f := vdot d2 r in
  if rle a eps then (0, clampR (f / e) 0 1)
  else
    let c := vdot d1 r in
    if rle e eps then (clampR (- c / a) 0 1, 0)
    else
      let b := vdot d1 d2 in
      let denom := a * e - b * b in
      let s := if req denom 0 then 0 else clampR ((b * f - c * e) / denom) 0 1 in
      let t := (b * s + f) / e in
      if rlt t 0 then (clampR (- c / a) 0 1, 0)
      else if rlt 1 t then (clampR ((b - c) / a) 0 1, 1)
      else (s, t).
Definition closest_segments (eps : R) (a1 b1 a2 b2 : vec3) : vec3 * vec3 :=
  let d1 := vsub b1 a1 in
  let d2 := vsub b2 a2 in
  if (rle (vlen2 d1) eps && rle (vlen2 d2) eps)%bool then (a1, a2)
  else let '(s, t) := segments_params eps a1 b1 a2 b2 in
       (vadd a1 (vscale s d1), vadd a2 (vscale t d2)).

(** mathematics_functions.h:203-219 computeBarycentricCoordinatesInTriangle: (u, v, w). *)
Definition barycentric (a b c p : vec3) : R * R * R :=
  let v0 := vsub b a in
  let v1 := vsub c a in
  let v2 := vsub p a in
  let d00 := vdot v0 v0 in
  let d01 := vdot v0 v1 in
  let d11 := vdot v1 v1 in
  let d20 := vdot v2 v0 in
  let d21 := vdot v2 v1 in
  let denom := d00 * d11 - d01 * d01 in
  let v := (d11 * d20 - d01 * d21) / denom in
  let w := (d00 * d21 - d01 * d20) / denom in
  (1 - v - w, v, w).

(** mathematics_functions.h:226-239 computePlaneSegmentIntersection. *)
Definition plane_segment (a b : vec3) (planeD : R) (n : vec3) : R :=
  let nab := vdot n (vsub b a) in
  if rlt (/ 10000) (Rabs nab) then (planeD - vdot n a) / nab else -1.

(** mathematics_functions.h:242-251 computePointToLineDistance. *)
Definition point_to_line (eps : R) (a b p : vec3) : R :=
  let d := vlen (vsub b a) in
  if rlt d eps then vlen (vsub p a) else vlen (vcross (vsub p a) (vsub p b)) / d.

(** One plane of mathematics_functions.h:275-325: the vertices kept of the segment v1 v2. *)
Definition clip_segment_plane (v1 v2 : vec3) (pp n : vec3) : list vec3 :=
  let d1 := vdot (vsub v1 pp) n in
  let d2 := vdot (vsub v2 pp) n in
  if rle 0 d2 then
    (if rlt d1 0 then
       let t := plane_segment v1 v2 (vdot n pp) n in
       if (rle 0 t && rle t 1)%bool then [vadd v1 (vscale t (vsub v2 v1))] else [v2]
     else [v1]) ++ [v2]
  else if rle 0 d1 then
    v1 :: (let t := plane_segment v1 v2 (- vdot n pp) (vneg n) in
           if (rle 0 t && rle t 1)%bool then [vadd v1 (vscale t (vsub v2 v1))] else [])
  else [].
(** The loop over the planes (mathematics_functions.h:269-327).  Reading inputVertices[1] of an array of one vertex
    is undefined behaviour (the assertion of line 274 is only checked in debug builds).  [out] is outputVertices. *)
Fixpoint clip_segment_loop (planes : list (vec3 * vec3)) (input out : list vec3) : res (list vec3) :=
  match planes with
  | [] => Ok out
  | (pp, n) :: rest =>
      match input with
      | [] => Ok []
      | _ =>
          let* v1 := rd (nth_error input 0) in
          let* v2 := rd (nth_error input 1) in
          let o := clip_segment_plane v1 v2 pp n in
          clip_segment_loop rest o o
      end
  end.
(** mathematics_functions.h:256-328 clipSegmentWithPlanes. *)
Definition clip_segment (a b : vec3) (planes : list (vec3 * vec3)) : res (list vec3) :=
  clip_segment_loop planes [a; b] [].

(** One edge of mathematics_functions.h:347-392; the products with the normal are recomputed from the vertex instead of
    being carried from one round to the next (same values). *)
Definition clip_polygon_edge (pp n : vec3) (vs ve : vec3) : list vec3 :=
  let ds := vdot (vsub vs pp) n in
  let de := vdot (vsub ve pp) n in
  if rle 0 de then
    (if rlt ds 0 then
       let t := plane_segment vs ve (vdot n pp) n in
       if (rle 0 t && rle t 1)%bool then [vadd vs (vscale t (vsub ve vs))] else [ve]
     else []) ++ [ve]
  else if rle 0 ds then
    let t := plane_segment vs ve (- vdot n pp) (vneg n) in
    if (rle 0 t && rle t 1)%bool then [vadd vs (vscale t (vsub ve vs))] else [vs]
  else [].
Fixpoint clip_polygon_loop (pp n : vec3) (vs : vec3) (rest : list vec3) : list vec3 :=
  match rest with
  | [] => []
  | ve :: rest' => clip_polygon_edge pp n vs ve ++ clip_polygon_loop pp n ve rest'
  end.
(** mathematics_functions.h:332-393 clipPolygonWithPlane: for an empty polygon polygonVertices[-1] is read. *)
Definition clip_polygon (poly : list vec3) (pp n : vec3) : res (list vec3) :=
  let* vs := rd (nth_error poly (length poly - 1)) in
  Ok (clip_polygon_loop pp n vs poly).

(** mathematics_functions.h:396-403. *)
Definition project_on_plane (p n pp : vec3) : vec3 := vsub p (vscale (vdot n (vsub p pp)) n).
Definition point_to_plane (p n pp : vec3) : R := vdot n (vsub p pp).
