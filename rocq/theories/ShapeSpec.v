(** Shapes as sets of points, and what boxes, support points and ray casts should say about them. *)
From Coq Require Import Reals List.
From Verif Require Import VecModel GeomSpec ShapeModel.
Import ListNotations.
Local Open Scope R_scope.

Definition ball (c : vec3) (r : R) (p : vec3) : Prop := dist p c <= r.
Definition cuboid (h p : vec3) : Prop :=
  - vx h <= vx p <= vx h /\ - vy h <= vy p <= vy h /\ - vz h <= vz p <= vz h.
(** Points within [r] of the segment of half length [hh] along the second axis. *)
Definition capsule (hh r : R) (p : vec3) : Prop :=
  exists q, on_segment (V3 0 (- hh) 0) (V3 0 hh 0) q /\ dist p q <= r.
Definition triangle_set (a b c p : vec3) : Prop :=
  exists u v w, 0 <= u /\ 0 <= v /\ 0 <= w /\ u + v + w = 1 /\
    p = V3 (u * vx a + v * vx b + w * vx c) (u * vy a + v * vy b + w * vy c) (u * vz a + v * vz b + w * vz c).
(** The convex hull of a list of points: the smallest convex set containing them. *)
Inductive hull (vs : list vec3) : vec3 -> Prop :=
| hull_vertex v : In v vs -> hull vs v
| hull_between p q m : hull vs p -> hull vs q -> on_segment p q m -> hull vs m.
(** The points behind all the planes of a list (point, normal). *)
Definition behind_all (planes : list (vec3 * vec3)) (p : vec3) : Prop :=
  Forall (fun pl => offset (fst pl) (snd pl) p <= 0) planes.

(** The image of a set of points under a rigid motion. *)
Definition moved (t : transform) (S : vec3 -> Prop) (p : vec3) : Prop := exists q, S q /\ p = tr_point t q.
Definition in_bounds (b : box3) (p : vec3) : Prop :=
  vx (bmin b) <= vx p <= vx (bmax b) /\ vy (bmin b) <= vy p <= vy (bmax b) /\ vz (bmin b) <= vz p <= vz (bmax b).
(** The smallest axis-aligned box around a set: it contains the set and each of its six sides is touched. *)
Definition tight_bounds (S : vec3 -> Prop) (b : box3) : Prop :=
  (forall p, S p -> in_bounds b p) /\
  (exists p, S p /\ vx p = vx (bmin b)) /\ (exists p, S p /\ vx p = vx (bmax b)) /\
  (exists p, S p /\ vy p = vy (bmin b)) /\ (exists p, S p /\ vy p = vy (bmax b)) /\
  (exists p, S p /\ vz p = vz (bmin b)) /\ (exists p, S p /\ vz p = vz (bmax b)).
(** A point of the set with the largest projection on [d]. *)
Definition is_support (S : vec3 -> Prop) (d s : vec3) : Prop :=
  S s /\ forall p, S p -> vx p * vx d + vy p * vy d + vz p * vz d <= vx s * vx d + vy s * vy d + vz s * vz d.
Definition interior (S : vec3 -> Prop) (p : vec3) : Prop := exists e, 0 < e /\ forall q, dist p q < e -> S q.

(** The point of a ray at a fraction. *)
Definition ray_at (y : ray) (u : R) : vec3 := lerp (ray_p1 y) (ray_p2 y) u.
(** [n] points out of the set at its point [p]: the set is behind the plane through [p] with the normal [n]. *)
Definition outward (S : vec3 -> Prop) (p n : vec3) : Prop := n <> V3 0 0 0 /\ forall q, S q -> offset p n q <= 0.
(** A correct answer of a ray cast: the first point of the ray in the set, with an outward normal. *)
Definition first_hit (S : vec3 -> Prop) (y : ray) (h : hit) : Prop :=
  0 <= hit_fraction h <= ray_max y /\
  hit_point h = ray_at y (hit_fraction h) /\
  S (hit_point h) /\
  (forall u, 0 <= u < hit_fraction h -> ~ S (ray_at y u)) /\
  outward S (hit_point h) (hit_normal h).
(** The ray has no point in the set before its end. *)
Definition misses (S : vec3 -> Prop) (y : ray) : Prop := forall u, 0 <= u < ray_max y -> ~ S (ray_at y u).
(** The ray has no point in the set, its end included. *)
Definition misses_closed (S : vec3 -> Prop) (y : ray) : Prop := forall u, 0 <= u <= ray_max y -> ~ S (ray_at y u).
(** What the ray cast of a triangle answers. *)
Definition triangle_hit (a b c : vec3) (y : ray) (h : hit) : Prop :=
  0 <= hit_fraction h <= ray_max y /\ hit_point h = ray_at y (hit_fraction h) /\ triangle_set a b c (hit_point h) /\
  (forall u, triangle_set a b c (ray_at y u) -> u = hit_fraction h) /\
  vlen (hit_normal h) = 1 /\ vdot (hit_normal h) (vsub b a) = 0 /\ vdot (hit_normal h) (vsub c a) = 0 /\
  vdot (hit_normal h) (vsub (ray_p2 y) (ray_p1 y)) < 0.
(** The rays for which the answer is exact, by the side that is tested. *)
Definition triangle_exact (eps : R) (a b c : vec3) (y : ray) (s : side) : Prop :=
  let k := vdot (vsub (ray_p2 y) (ray_p1 y)) (vcross (vsub b a) (vsub c a)) in
  match s with
  | Front => k <= - (3 * eps)
  | Back => 3 * eps <= k
  | FrontAndBack => 3 * eps <= Rabs k /\ forall u x, ray_at y u = lerp b c x -> 0 <= x <= 1
  end.

(** The image of a set of points under a scaling of the three axes. *)
Definition scaled (k : vec3) (S : vec3 -> Prop) (p : vec3) : Prop :=
  exists q, S q /\ p = V3 (vx q * vx k) (vy q * vy k) (vz q * vz k).
(** The points of a convex mesh: those behind the planes of all its faces. *)
Definition mesh_set (m : cmesh) : vec3 -> Prop :=
  behind_all (map (fun f => (cm_vertex m (snd f), fst f)) (cm_faces m)).
