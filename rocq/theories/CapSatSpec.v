(** What the separating axis test should say about a capsule and a convex polyhedron. *)
From Coq Require Import Reals List.
From Verif Require Import Base VecModel GeomSpec HalfEdgeModel ShapeModel ShapeSpec GjkSpec NarrowModel NarrowSpec SatModel SatSpec.
Import ListNotations.
Local Open Scope R_scope.

(** The points of a placed capsule, and those of its inner segment. *)
Definition cap_body (hh r : R) (t : transform) : vec3 -> Prop := moved t (capsule hh r).
Definition cap_seg (hh : R) : vec3 -> Prop := on_segment (V3 0 (- hh) 0) (V3 0 hh 0).
(** A capsule and a polyhedron that is not a triangle, as the test expects them. *)
Definition cap_setting (eps big hh r : R) (p : solid) (tc tp : transform) : Prop :=
  0 < eps <= / 1000 /\ 4 < big /\ 0 < hh /\ 0 < r /\ quat_len2 (t_rot tc) = 1 /\ quat_len2 (t_rot tp) = 1 /\ solid_ok big p /\ so_triangle p = false.
(** The outward normal of a face in world space. *)
Definition face_normal (p : solid) (tp : transform) (f : nat) : option vec3 := option_map (quat_vec (t_rot tp)) (nth_error (so_normals p) f).
(** The distance of a point (in the space of the polyhedron) behind the plane of a face. *)
Definition behind_by (p : solid) (f : nat) (x : vec3) (d : R) : Prop := exists n y, nth_error (so_normals p) f = Some n /\ In y (so_verts p) /\ d = vdot n (vsub y x) /\
  forall z, In z (so_verts p) -> vdot n (vsub z y) <= 0.
(** A contact of a capsule (point [xc] in its space) with the face [f] of a polyhedron (point [xp] in its space), [n] the outward normal of the face in
    world space: the one point is on the surface of the capsule, the other between the sides of the face, in its plane or less than one thousandth in front. *)
Record cap_face_contact (hh r : R) (p : solid) (tc tp : transform) (f : nat) (n : vec3) (depth : R) (xc xp : vec3) : Prop := {
  cf_capsule : exists s, cap_seg hh s /\ tr_point tc xc = shifted (tr_point tc s) n (- r);
  cf_prism : in_prism p f xp;
  cf_plane : exists d, behind_by p f xp d /\ - / 1000 < d <= 0;
  cf_apart : tr_point tp xp = shifted (tr_point tc xc) n depth }.
(** A contact of a capsule with an edge of a polyhedron. *)
Definition cap_edge_contact (tol hh r : R) (p : solid) (tc tp : transform) (n : vec3) (xc xp : vec3) : Prop := exists A B s,
  edge_points p A B /\ on_segment A B xp /\ cap_seg hh s /\ tr_point tc xc = shifted (tr_point tc s) n (- r) /\
  forall y z, on_segment A B y -> cap_seg hh z -> dist (tr_point tc s) (tr_point tp xp) <= dist (tr_point tc z) (tr_point tp y) + tol.
(** No end of the inner segment is between the sides of the face and less than one thousandth less deep than [deepest]. *)
Definition cap_misses (hh : R) (p : solid) (tc tp : transform) (f : nat) (deepest : R) : Prop :=
  forall s y d, s = V3 0 (- hh) 0 \/ s = V3 0 hh 0 -> tr_point tp y = tr_point tc s -> in_prism p f y -> behind_by p f y d -> d <= deepest - / 1000.
(** [m] is the axis given by the inner segment and an edge of the polyhedron (a half-edge with an even number): perpendicular to both and leading away from
    the centroid; the edge is seen from the segment as a border (the two faces at the edge look to different sides along the segment) and the two are not
    nearly parallel. *)
Definition crossing_axis (hh : R) (p : solid) (tc tp : transform) (m : vec3) : Prop := exists i k e a b A B,
  let s := quat_vec (t_rot tc) (V3 0 (2 * hh) 0) in let edge := quat_vec (t_rot tp) (vsub B A) in
  Nat.even i = true /\ runs p i a A B /\ nth_error (st_edges (so_edges p)) i = Some e /\ e_twin e = Some k /\ runs p k b B A /\
  vdot (quat_vec (t_rot tp) a) s * vdot (quat_vec (t_rot tp) b) s < 0 /\ / 100000 <= vlen2 (vcross s edge) /\
  vlen m = 1 /\ vdot m s = 0 /\ vdot m edge = 0 /\ 0 <= vdot m (quat_vec (t_rot tp) (vsub A (so_centroid p))).
