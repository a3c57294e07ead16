(** The test of a capsule against a convex polyhedron (src/collision/narrowphase/CapsuleVsConvexPolyhedronAlgorithm.cpp), in exact arithmetic: the GJK
    algorithm, further contacts beside a shallow one, and the separating axis test for deep overlaps.  One pair of a batch is modelled; the polyhedron is
    not a triangle. *)
From Coq Require Import List Bool Arith.
From Verif Require Import Base VecModel GeomModel ShapeModel NarrowModel HalfEdgeModel GjkModel SatModel CapSatModel.
Import ListNotations.
Local Open Scope R_scope.

(** mathematics_functions.h:76-78 areParallelVectors, 82-84 areOrthogonalVectors. *)
Definition parallel_vectors (a b : vec3) : bool := rlt (vlen2 (vcross a b)) (/ 100000).
Definition orthogonal_vectors (a b : vec3) : bool := rlt (Rabs (vdot a b)) (/ 1000).
(** CapsuleVsConvexPolyhedronAlgorithm.cpp:100-152: the faces [fs] of the polyhedron; [c] is the contact found by GJK. *)
Fixpoint shallow_faces (eps : R) (fuel : nat) (first : bool) (hh r : R) (p : solid) (tc tp : transform) (c : contact) (fs : list nat) : res (list contact) :=
  match fs with
  | [] => Ok []
  | f :: rest =>
      let* n := normal p f in
      let nw := quat_vec (t_rot tp) n in
      let dir := vnormalize eps (quat_vec (t_rot tc) (vsub (seg_b hh) (seg_a hh))) in
      let along := rlt 0 (vdot nw (c_normal c)) in
      let towards := (first && negb along) || (negb first && along) in
      if towards && orthogonal_vectors nw dir && parallel_vectors nw (c_normal c) then
        let t := tr_mul (tr_inverse tc) tp in
        let t' := tr_inverse t in
        let* (found, cs) := cap_face_contacts fuel r p f (c_depth c) t (if first then vneg nw else nw) (quat_vec (t_rot t) n)
                              (tr_point t' (seg_a hh)) (tr_point t' (seg_b hh)) first in
        if found then Ok cs else let* more := shallow_faces eps fuel first hh r p tc tp c rest in Ok (cs ++ more)
      else shallow_faces eps fuel first hh r p tc tp c rest
  end.
(** CapsuleVsConvexPolyhedronAlgorithm.cpp:42-180 testCollision; [first]: the capsule is the first shape.  The contact found by GJK stays the first one of
    the pair. *)
Definition capsule_polyhedron (eps big : R) (fuel : nat) (report first : bool) (hh r : R) (p : solid) (tc tp : transform) (cache : option vec3)
  : res (bool * list contact) :=
  let capsule := CShape (capsule_support0 hh) r in
  let poly := CShape (so_support p) 0 in
  let* x := (if first then gjk eps big fuel report capsule poly tc tp cache else gjk eps big fuel report poly capsule tp tc cache) in
  match fst (fst x) with
  | Separated => Ok (false, [])
  | InMargin =>
      if report then
        let* c := rd (nth_error (snd (fst x)) 0) in
        let* more := shallow_faces eps fuel first hh r p tc tp c (seq 0 (length (so_faces p))) in
        Ok (true, snd (fst x) ++ more)
      else Ok (true, snd (fst x))
  | Interpenetrate => sat_capsule eps big fuel report first hh r p tc tp
  end.
