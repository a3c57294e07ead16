(** What the GJK algorithm should say about two convex shapes, each the convex hull of a list of vertices, made thick by a margin. *)
From Coq Require Import Reals List.
From Verif Require Import VecModel GeomSpec ShapeModel ShapeSpec NarrowModel NarrowSpec GjkModel.
Import ListNotations.
Local Open Scope R_scope.

(** A function that finds, for each direction of moderate length, a vertex that is farthest in this direction. *)
Definition finds_vertex (big : R) (f : vec3 -> vec3) (vs : list vec3) : Prop :=
  forall d, 4 * (vx d * vx d + vy d * vy d + vz d * vz d) < big -> is_support (fun p => In p vs) d (f d).
(** The points of a shape without its margin in world space. *)
Definition hull_core (vs : list vec3) (t : transform) : vec3 -> Prop := moved t (hull vs).
(** The vertices of the two placed shapes are at most [D] apart. *)
Definition within (D : R) (vs1 : list vec3) (t1 : transform) (vs2 : list vec3) (t2 : transform) : Prop :=
  forall p q, In p vs1 -> In q vs2 -> dist (tr_point t1 p) (tr_point t2 q) <= D.
(** The differences of the vertices of the two placed shapes. *)
Definition differences (vs1 : list vec3) (t1 : transform) (vs2 : list vec3) (t2 : transform) : list vec3 :=
  map (fun pq => vsub (tr_point t1 (fst pq)) (tr_point t2 (snd pq))) (list_prod vs1 vs2).
(** No three of the points span a small triangle (twice its area at most 0.01) and no four a small tetrahedron (six times its volume
    at most 0.0001), unless they lie on a line or in a plane. *)
Definition no_slivers (l : list vec3) : Prop :=
  (forall a b c, In a l -> In b l -> In c l -> vlen2 (vcross (vsub b a) (vsub c a)) <= 1 / 10000 -> vcross (vsub b a) (vsub c a) = V3 0 0 0) /\
  (forall a b c d, In a l -> In b l -> In c l -> In d l -> Rabs (vdot (vsub b a) (vcross (vsub c a) (vsub d a))) <= 1 / 10000 ->
     vdot (vsub b a) (vcross (vsub c a) (vsub d a)) = 0).
(** The error of the algorithm for vertices within [D]: one centimetre, or a small part of [D]. *)
Definition gjk_error (eps D : R) : R := Rmax (/ 100) (Rmax (1 / 1000000 * D) (5 * sqrt eps * D)).
(** A contact as in NarrowSpec, except that it need not end the overlap. *)
Record near_contact (C1 C2 : vec3 -> Prop) (r1 r2 : R) (n : vec3) (depth : R) (w1 w2 : vec3) : Prop := {
  nc_unit : vlen n = 1;
  nc_depth : 0 < depth;
  nc_surface1 : exists q, C1 q /\ w1 = shifted q n r1;
  nc_surface2 : exists q, C2 q /\ w2 = shifted q n (- r2);
  nc_apart : w1 = shifted w2 n depth
}.
(** Moving the second shape by depth times normal ends the overlap up to [slack]. *)
Definition nearly_separates (slack : R) (C1 C2 : vec3 -> Prop) (r1 r2 : R) (n : vec3) (depth : R) : Prop :=
  forall p q, C1 p -> C2 q -> r1 + r2 - slack <= dist p (shifted q n depth).

(** The vertices of the shapes. *)
Definition box_corners (h : vec3) : list vec3 :=
  [V3 (- vx h) (- vy h) (- vz h); V3 (- vx h) (- vy h) (vz h); V3 (- vx h) (vy h) (- vz h); V3 (- vx h) (vy h) (vz h);
   V3 (vx h) (- vy h) (- vz h); V3 (vx h) (- vy h) (vz h); V3 (vx h) (vy h) (- vz h); V3 (vx h) (vy h) (vz h)].
Definition capsule_ends (hh : R) : list vec3 := [V3 0 hh 0; V3 0 (- hh) 0].

(** Two placed shapes as the algorithm expects them: support functions that find the vertices, unit quaternions, margins that are not
    negative, distances that are small against DECIMAL_LARGEST, and a cached axis that is not too long. *)
Definition placed (eps big D : R) (s1 s2 : cshape) (t1 t2 : transform) (vs1 vs2 : list vec3) (cache : option vec3) : Prop :=
  0 < eps <= / 2 /\ 0 < D /\ 4 * (D * D) < big /\ 4 < big /\ quat_len2 (t_rot t1) = 1 /\ quat_len2 (t_rot t2) = 1 /\
  finds_vertex big (cs_support s1) vs1 /\ finds_vertex big (cs_support s2) vs2 /\ within D vs1 t1 vs2 t2 /\
  (forall v, cache = Some v -> 4 * vlen2 v < big) /\ 0 <= cs_margin s1 /\ 0 <= cs_margin s2.

(** ** Polyhedra *)

(** The faces (normal, point) describe the hull of the vertices: unit normals that point out, and no other points behind all faces. *)
Definition faces_of (vs : list vec3) (faces : list (vec3 * vec3)) : Prop :=
  faces <> [] /\ (forall f, In f faces -> vlen (fst f) = 1 /\ In (snd f) vs) /\
  (forall p, hull vs p <-> behind_all (map (fun f => (snd f, fst f)) faces) p).

(** A sphere and a polyhedron as the algorithm expects them, given as for [placed]. *)
Definition sphere_placed (eps big D r : R) (ts : transform) (po : polyhedron) (tp : transform) (vs : list vec3) (cache : option vec3) : Prop :=
  0 < eps <= / 2 /\ 0 < D /\ 4 * (D * D) < big /\ 4 < big /\ D + r < big /\ quat_len2 (t_rot ts) = 1 /\ quat_len2 (t_rot tp) = 1 /\
  finds_vertex big (po_support po) vs /\ faces_of vs (po_faces po) /\ (forall v, In v vs -> dist (tr_point tp v) (t_pos ts) <= D) /\
  (forall v, cache = Some v -> 4 * vlen2 v < big) /\ 0 < r.
(** The six faces of a box. *)
Definition box_faces (h : vec3) : list (vec3 * vec3) :=
  [(V3 1 0 0, h); (V3 0 1 0, h); (V3 0 0 1, h); (V3 (-1) 0 0, vneg h); (V3 0 (-1) 0, vneg h); (V3 0 0 (-1), vneg h)].
