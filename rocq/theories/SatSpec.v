(** What the separating axis test should say about two convex polyhedra, and what it expects of them. *)
From Coq Require Import Reals List.
From Verif Require Import Base VecModel GeomSpec HalfEdgeModel ShapeModel ShapeSpec GjkSpec NarrowModel NarrowSpec SatModel.
Import ListNotations.
Local Open Scope R_scope.

(** The points of a placed polyhedron. *)
Definition body_of (p : solid) (t : transform) : vec3 -> Prop := moved t (hull (so_verts p)).
(** Two sets on different sides of a plane with the unit normal [n]: they share no more than points of the plane. *)
Definition apart_along (n : vec3) (A B : vec3 -> Prop) : Prop :=
  vlen n = 1 /\ exists c, (forall p, A p -> vdot n p <= c) /\ (forall q, B q -> c <= vdot n q).
Definition apart (A B : vec3 -> Prop) : Prop := exists n, apart_along n A B.
(** The depth of the overlap of two sets in the direction [n]: the largest distance of a point of [A] beyond a point of [B].  Moving [B] by
    less than [d] along [n] does not bring it in front of [A], moving it by [d] does; [d] is not positive if it already is. *)
Definition depth_along (n : vec3) (A B : vec3 -> Prop) (d : R) : Prop :=
  vlen n = 1 /\ (forall p q, A p -> B q -> vdot n (vsub p q) <= d) /\ exists p q, A p /\ B q /\ vdot n (vsub p q) = d.
Definition shifted_set (S : vec3 -> Prop) (n : vec3) (k : R) (p : vec3) : Prop := exists q, S q /\ p = shifted q n k.

(** The half-edge from [A] to [B] of a face with the normal [a] of a convex polyhedron with vertices [vs]: no vertex is in front of the face, the
    vertices in its plane are on the left of the edge, seen from outside, and not all on its line. *)
Record border (vs : list vec3) (a A B : vec3) : Prop := {
  bo_unit : vlen a = 1;
  bo_along : vdot a (vsub B A) = 0;
  bo_behind : forall x, In x vs -> vdot a (vsub x A) <= 0;
  bo_left : forall x, In x vs -> vdot a (vsub x A) = 0 -> 0 <= vdot (vcross a (vsub B A)) (vsub x A);
  bo_proper : exists x, In x vs /\ vdot a (vsub x A) = 0 /\ 0 < vdot (vcross a (vsub B A)) (vsub x A) }.
(** A half-edge of the structure, from [A] to [B], with the normal of its face. *)
Definition runs (p : solid) (i : nat) (a A B : vec3) : Prop :=
  exists e n, nth_error (st_edges (so_edges p)) i = Some e /\ nth_error (so_normals p) (e_face e) = Some a /\ nth_error (so_verts p) (e_vertex e) = Some A /\
    (exists k, e_next e = Some k /\ nth_error (st_edges (so_edges p)) k = Some n) /\ nth_error (so_verts p) (e_vertex n) = Some B.
(** The half-edges reached from [start] by going on to the next half-edge. *)
Inductive around (p : solid) (start : nat) : nat -> Prop :=
| ar_start : around p start start
| ar_next : forall k e j, around p start k -> nth_error (st_edges (so_edges p)) k = Some e -> e_next e = Some j -> around p start j.
(** A point (in the space of the polyhedron) is between the planes through the sides of a face, perpendicular to the face. *)
Definition in_prism (p : solid) (f : nat) (x : vec3) : Prop := forall start axis k a A B,
  nth_error (st_faces (so_edges p)) f = Some start -> nth_error (so_normals p) f = Some axis -> around p start k -> runs p k a A B ->
  0 <= vdot (vcross axis (vsub B A)) (vsub x A).
(** A point is strictly behind the plane of a face / in front of it or in it / in it (no vertex being in front of the face). *)
Definition behind_face (p : solid) (f : nat) (x : vec3) : Prop := exists n y, nth_error (so_normals p) f = Some n /\ In y (so_verts p) /\ vdot n (vsub x y) < 0.
Definition on_face (p : solid) (f : nat) (x : vec3) : Prop :=
  exists n y, nth_error (so_normals p) f = Some n /\ In y (so_verts p) /\ vdot n (vsub x y) = 0 /\ forall z, In z (so_verts p) -> vdot n (vsub z x) <= 0.
(** The corners of a face. *)
Definition corners (p : solid) (g : nat) : list vec3 :=
  flat_map (fun i => match nth_error (so_verts p) i with Some v => [v] | None => [] end) (nth g (so_faces p) []).
(** A contact between the face [f] of the polyhedron [rp] and the face [g] of [ip], given with the points in the spaces of the polyhedra, which are
    placed by [tr] and [ti]; [n] is the outward normal of the face [f] in world space. *)
Record face_contact (rp ip : solid) (tr ti : transform) (f g : nat) (n : vec3) (depth : R) (xr xi : vec3) : Prop := {
  fc_depth : 0 < depth;
  fc_incident : hull (corners ip g) xi;
  fc_reference : on_face rp f xr /\ in_prism rp f xr;
  fc_apart : tr_point tr xr = shifted (tr_point ti xi) n depth }.
(** No face of the polyhedron [ip] is turned more against the direction [n] than the face [g]. *)
Definition facing (ip : solid) (ti : transform) (n : vec3) (g : nat) : Prop := exists m, nth_error (so_normals ip) g = Some m /\
  forall h m', nth_error (so_normals ip) h = Some m' -> vdot n (quat_vec (t_rot ti) m) <= vdot n (quat_vec (t_rot ti) m').
(** No corner of the face [g] is between the sides of the face [f] and strictly behind it. *)
Definition misses (rp ip : solid) (tr ti : transform) (f g : nat) : Prop :=
  forall x y, In x (corners ip g) -> tr_point ti x = tr_point tr y -> in_prism rp f y -> ~ behind_face rp f y.
(** The outward normal of a face of the first polyhedron in world space, or the inward normal of a face of the second. *)
Definition world_face (first : bool) (p1 p2 : solid) (t1 t2 : transform) (f : nat) : option vec3 :=
  if first then option_map (quat_vec (t_rot t1)) (nth_error (so_normals p1) f)
  else option_map (fun n => vneg (quat_vec (t_rot t2) n)) (nth_error (so_normals p2) f).
(** From [cur], [n] steps to the next half-edge lead to [stop]. *)
Inductive returns (p : solid) (stop : nat) : nat -> nat -> Prop :=
| ret_end : forall cur e, nth_error (st_edges (so_edges p)) cur = Some e -> e_next e = Some stop -> returns p stop cur 1
| ret_more : forall cur e k n, nth_error (st_edges (so_edges p)) cur = Some e -> e_next e = Some k -> k <> stop -> returns p stop k n -> returns p stop cur (S n).
(** A convex polyhedron as the test expects it. *)
Record solid_ok (big : R) (p : solid) : Prop := {
  (* the support function finds the farthest vertex *)
  ok_support : finds_vertex big (so_support p) (so_verts p);
  (* every face has a unit normal, its vertices are vertices of the polyhedron in its plane, and no vertex is in front of it *)
  ok_some : so_faces p <> [];
  ok_count : length (so_normals p) = length (so_faces p) /\ length (st_faces (so_edges p)) = length (so_faces p);
  ok_faces : forall f vs n, nth_error (so_faces p) f = Some vs -> nth_error (so_normals p) f = Some n ->
    vlen n = 1 /\ vs <> [] /\ forall i, In i vs -> exists v, nth_error (so_verts p) i = Some v /\ forall x, In x (so_verts p) -> vdot n (vsub x v) <= 0;
  (* every half-edge has a twin that runs back *)
  ok_edges : forall i e, nth_error (st_edges (so_edges p)) i = Some e -> exists a b A B k, runs p i a A B /\ e_twin e = Some k /\ runs p k b B A /\
    border (so_verts p) a A B /\ border (so_verts p) b B A;
  (* the half-edge kept for a face belongs to it, and the following half-edges lead back to it *)
  ok_start : forall f i, nth_error (st_faces (so_edges p)) f = Some i -> (exists e, nth_error (st_edges (so_edges p)) i = Some e /\ e_face e = f) /\
    exists n, (n <= length (st_edges (so_edges p)))%nat /\ returns p i i n;
  (* the centroid of a polyhedron that is not a triangle is inside *)
  ok_centroid : so_triangle p = false -> forall i a A B, runs p i a A B -> vdot a (vsub (so_centroid p) A) < 0 }.

(** The data kept of a pair name a face, or two of the half-edges with even numbers. *)
Definition cache_ok (p1 p2 : solid) (l : last_frame) : Prop :=
  if lf_face1 l then (lf_face l < length (so_faces p1))%nat
  else if lf_face2 l then (lf_face l < length (so_faces p2))%nat
  else (lf_edge1 l < length (st_edges (so_edges p1)))%nat /\ (lf_edge2 l < length (st_edges (so_edges p2)))%nat /\ Nat.even (lf_edge1 l) = true /\ Nat.even (lf_edge2 l) = true.

(** Two placed polyhedra as the test expects them: not two triangles, unit quaternions. *)
Definition sat_setting (eps big : R) (p1 p2 : solid) (t1 t2 : transform) : Prop :=
  0 < eps <= / 1000 /\ 4 < big /\ quat_len2 (t_rot t1) = 1 /\ quat_len2 (t_rot t2) = 1 /\ solid_ok big p1 /\ solid_ok big p2 /\
  (so_triangle p1 = false \/ so_triangle p2 = false).
(** An edge of a polyhedron. *)
Definition edge_points (p : solid) (A B : vec3) : Prop := exists i a, runs p i a A B.
(** A contact between two edges: the points are on the edges, and no two points of the edges are closer by more than [tol]. *)
Definition edge_edge_contact (tol : R) (p1 p2 : solid) (t1 t2 : transform) (x1 x2 : vec3) : Prop := exists A1 B1 A2 B2,
  edge_points p1 A1 B1 /\ edge_points p2 A2 B2 /\ on_segment A1 B1 x1 /\ on_segment A2 B2 x2 /\
  forall y1 y2, on_segment A1 B1 y1 -> on_segment A2 B2 y2 -> dist (tr_point t1 x1) (tr_point t2 x2) <= dist (tr_point t1 y1) (tr_point t2 y2) + tol.
(** The axis kept from the last frame is not used to answer that the shapes still collide. *)
Definition no_shortcut (clip : bool) (l : last_frame) : Prop := clip = false \/ lf_valid l = false \/ lf_colliding l = false.
