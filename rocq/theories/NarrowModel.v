(** The narrow-phase algorithms for spheres and capsules, in exact arithmetic.  [eps] stands for MACHINE_EPSILON.  Each function
    treats one item of a batch and gives the flag isColliding and the list of the contact points added; [report] is the flag
    reportContacts of the item.  The asserts are not modelled. *)
From Coq Require Import List.
From Verif Require Import VecModel GeomModel ShapeModel.
Import ListNotations.
Local Open Scope R_scope.

(** include/reactphysics3d/collision/ContactPointInfo.h: normal in world space, depth, points in the spaces of the shapes. *)
Record contact : Type := Contact { c_normal : vec3; c_depth : R; c_local1 : vec3; c_local2 : vec3 }.

(** src/collision/narrowphase/SphereVsSphereAlgorithm.cpp:33-112 testCollision. *)
Definition sphere_sphere (eps : R) (report : bool) (r1 r2 : R) (t1 t2 : transform) : bool * list contact :=
  let v := vsub (t_pos t2) (t_pos t1) in
  let d2 := vlen2 v in
  let sum := r1 + r2 in
  if rlt d2 (sum * sum) then
    let depth := sum - sqrt d2 in
    if rlt 0 depth then
      (true,
       if report then
         let i1 := tr_inverse t1 in
         let i2 := tr_inverse t2 in
         if rlt eps d2 then
           let c2 := tr_point i1 (t_pos t2) in
           let c1 := tr_point i2 (t_pos t1) in
           [Contact (vunit eps v) depth (vscale r1 (vunit eps c2)) (vscale r2 (vunit eps c1))]
         else
           let n := V3 0 1 0 in
           [Contact n depth (vscale r1 (quat_vec (t_rot i1) n)) (vscale r2 (quat_vec (t_rot i2) n))]
       else [])
    else (false, [])
  else (false, []).

(** SphereVsCapsuleAlgorithm.cpp:108-120 and CapsuleVsCapsuleAlgorithm.cpp:127-141: a direction orthogonal to a segment. *)
Definition orthogonal_to (eps : R) (seg : vec3) : vec3 :=
  let s := vunit eps seg in
  if rlt (Rabs (vx s)) (Rabs (vy s)) then vcross s (V3 1 0 0) else vcross s (V3 0 1 0).

(** src/collision/narrowphase/SphereVsCapsuleAlgorithm.cpp:38-150 testCollision; [first] is isSphereShape1, [rs], [ts] belong to
    the sphere and [rc], [hh] (half height), [tc] to the capsule. *)
Definition sphere_capsule (eps : R) (report first : bool) (rs : R) (ts : transform) (rc hh : R) (tc : transform) : bool * list contact :=
  let s2c := tr_mul (tr_inverse tc) ts in
  let c := t_pos s2c in
  let a := V3 0 (- hh) 0 in
  let b := V3 0 hh 0 in
  let q := closest_on_segment eps a b c in
  let v := vsub q c in
  let d2 := vlen2 v in
  let sum := rs + rc in
  if rlt d2 (sum * sum) then
    if report then
      let '(n, depth, ps, pc) :=
        if rlt eps d2 then
          let d := sqrt d2 in
          let v := vdiv v d in
          let n := quat_vec (t_rot tc) v in
          (if first then n else vneg n, sum - d,
           tr_point (tr_inverse s2c) (vadd c (vscale rs v)), vsub q (vscale rc v))
        else
          let n := orthogonal_to eps (vsub b a) in
          (quat_vec (t_rot tc) n, sum, tr_point (tr_inverse s2c) (vadd c (vscale rs n)), vsub c (vscale rc n)) in
      if rle depth 0 then (false, [])
      else (true, [Contact n depth (if first then ps else pc) (if first then pc else ps)])
    else (true, [])
  else (false, []).

(** src/collision/narrowphase/CapsuleVsCapsuleAlgorithm.cpp:87-167: parallel inner segments whose projections overlap, in the space
    of the second capsule.  [t1], [t2] are the parameters of the clipped segment and [perp] the distance of the two lines. *)
Definition capsule_parallel (eps : R) (r1 r2 : R) (c1to2 tr2 : transform) (a1 b1 a2 b2 : vec3) (perp t1 t2 : R) : list contact :=
  let seg1 := vsub b1 a1 in
  let seg2 := vsub b2 a2 in
  let t1 := if rlt 1 t1 then 1 else t1 in
  let ca := vsub b2 (vscale t1 seg2) in
  let t2 := if rlt 1 t2 then 1 else t2 in
  let cb := vadd a2 (vscale t2 seg2) in
  let s1 := vunit eps seg1 in
  let on1 := vadd a1 (vscale (vdot s1 (vsub a2 a1)) s1) in
  let '(n, s1to2) :=
    if rlt eps perp then (vunit eps (vsub a2 on1), vsub a2 on1)
    else (orthogonal_to eps seg2, V3 0 0 0) in
  let inv := tr_inverse c1to2 in
  let depth := r1 + r2 - perp in
  let nw := quat_vec (t_rot tr2) n in
  [Contact nw depth (tr_point inv (vadd (vsub ca s1to2) (vscale r1 n))) (vsub ca (vscale r2 n));
   Contact nw depth (tr_point inv (vadd (vsub cb s1to2) (vscale r1 n))) (vsub cb (vscale r2 n))].
(** CapsuleVsCapsuleAlgorithm.cpp:170-232: the closest points of the inner segments. *)
Definition capsule_closest (eps : R) (report parallel : bool) (r1 r2 : R) (c1to2 tr2 : transform) (a1 b1 a2 b2 : vec3) : bool * list contact :=
  let '(q1, q2) := closest_segments eps a1 b1 a2 b2 in
  let v := vsub q2 q1 in
  let d2 := vlen2 v in
  let sum := r1 + r2 in
  let inv := tr_inverse c1to2 in
  let mk n depth := [Contact (quat_vec (t_rot tr2) n) depth (tr_point inv (vadd q1 (vscale r1 n))) (vsub q2 (vscale r2 n))] in
  if rlt d2 (sum * sum) then
    (true,
     if report then
       if rlt eps d2 then let d := sqrt d2 in mk (vdiv v d) (Rmax (sum - d) eps)
       else if parallel then
         let far := if rlt eps (vlen2 (vsub a1 q2)) then a1 else b1 in
         mk (vnormalize eps (vsub q2 far)) sum
       else mk (vnormalize eps (vcross (vsub b1 a1) (vsub b2 a2))) sum
     else [])
  else (false, []).
(** CapsuleVsCapsuleAlgorithm.cpp:37-238 testCollision; [h1], [h2] are the half heights. *)
Definition capsule_capsule (eps : R) (report : bool) (r1 h1 : R) (tr1 : transform) (r2 h2 : R) (tr2 : transform) : bool * list contact :=
  let c1to2 := tr_mul (tr_inverse tr2) tr1 in
  let a1 := tr_point c1to2 (V3 0 (- h1) 0) in
  let b1 := tr_point c1to2 (V3 0 h1 0) in
  let a2 := V3 0 (- h2) 0 in
  let b2 := V3 0 h2 0 in
  let seg1 := vsub b1 a1 in
  let seg2 := vsub b2 a2 in
  let sum := r1 + r2 in
  if are_parallel seg1 seg2 then
    let perp := point_to_line eps a1 b1 a2 in
    if rle sum perp then (false, [])
    else
      let t1 := plane_segment b2 a2 (vdot seg1 a1) seg1 in
      let t2 := plane_segment a2 b2 (- vdot seg1 b1) (vneg seg1) in
      if (rlt 0 t1 && rlt 0 t2)%bool then
        (true, if report then capsule_parallel eps r1 r2 c1to2 tr2 a1 b1 a2 b2 perp t1 t2 else [])
      else capsule_closest eps report true r1 r2 c1to2 tr2 a1 b1 a2 b2
  else capsule_closest eps report false r1 r2 c1to2 tr2 a1 b1 a2 b2.
