(** What a triangle mesh made from arrays of the user, and the queries on it, should be. *)
From Coq Require Import List Sorted Arith.
From Verif Require Import VecModel GeomSpec ShapeModel ShapeSpec TriMeshModel.
Import ListNotations.
Local Open Scope R_scope.

(** The members of [l] with the property [P], in their order, are [k]. *)
Inductive kept {A} (P : A -> Prop) : list A -> list A -> Prop :=
| kept_nil : kept P [] []
| kept_in a l k : P a -> kept P l k -> kept P (a :: l) (a :: k)
| kept_out a l k : ~ P a -> kept P l k -> kept P (a :: l) k.

(** [m] is the largest absolute value of a coordinate of the points. *)
Definition largest (coordinate : vec3 -> R) (vs : list vec3) (m : R) : Prop :=
  (forall v, In v vs -> Rabs (coordinate v) <= m) /\ (m = 0 /\ vs = [] \/ exists v, In v vs /\ Rabs (coordinate v) = m).
(** The length below which the mesh takes a length for zero. *)
Definition tolerance (eps : R) (vs : list vec3) (e : R) : Prop :=
  exists x y z, largest vx vs x /\ largest vy vs y /\ largest vz vs z /\ e = 3 * (x + y + z) * eps.

(** [j] is one of the three vertices of the triangle. *)
Definition corner (f : face) (j : nat) : Prop := let '(a, b, c) := f in j = a \/ j = b \/ j = c.
Definition in_range (ta : tri_array) (f : face) : Prop := forall j, corner f j -> (j < length (ta_vertices ta))%nat.
Definition points_of (vs : list vec3) (f : face) (p q r : vec3) : Prop :=
  let '(a, b, c) := f in nth_error vs a = Some p /\ nth_error vs b = Some q /\ nth_error vs c = Some r.
(** Twice the area of a triangle. *)
Definition double_area (p q r : vec3) : R := vlen (vcross (vsub q p) (vsub r p)).
Definition flat (e : R) (p q r : vec3) : Prop := double_area p q r < e.
Definition short (e : R) (p q r : vec3) : Prop := dist p q < e \/ dist q r < e \/ dist r p < e.
(** A triangle with existing vertices, an area and three edges. *)
Definition good (ta : tri_array) (e : R) (f : face) : Prop :=
  exists p q r, points_of (ta_vertices ta) f p q r /\ ~ flat e p q r /\ ~ short e p q r.
Definition corner_of_good (ta : tri_array) (e : R) (j : nat) : Prop := exists f, In f (ta_faces ta) /\ good ta e f /\ corner f j.
(** The user gives no normals or one for each vertex. *)
Definition complete (ta : tri_array) : Prop := forall ns, ta_normals ta = Some ns -> length ns = length (ta_vertices ta).
(** A good triangle uses a normal of the user that is too short. *)
Definition small_normal (ta : tri_array) (e : R) (j : nat) : Prop :=
  exists ns n, ta_normals ta = Some ns /\ nth_error ns j = Some n /\ vlen n < e /\ corner_of_good ta e j.
(** When a mesh is to be accepted. *)
Definition acceptable (ta : tri_array) (e : R) : Prop :=
  (forall f, In f (ta_faces ta) -> in_range ta f) /\ (exists f, In f (ta_faces ta) /\ good ta e f) /\ (forall j, ~ small_normal ta e j).
(** The messages that are to be given. *)
Definition to_be_said (ta : tri_array) (e : R) (m : message) : Prop :=
  match m with
  | IndexOut i v => exists f, nth_error (ta_faces ta) i = Some f /\ corner f v /\ (length (ta_vertices ta) <= v)%nat
  | ZeroArea i => exists f p q r, nth_error (ta_faces ta) i = Some f /\ points_of (ta_vertices ta) f p q r /\ flat e p q r
  | ZeroEdge i => exists f p q r, nth_error (ta_faces ta) i = Some f /\ points_of (ta_vertices ta) f p q r /\ short e p q r
  | SmallNormal j => small_normal ta e j
  | NoTriangles => forall f, In f (ta_faces ta) -> ~ good ta e f
  end.

(** The triangle [f] of the mesh in terms of the vertices of the user; [us] lists the vertices of the user that are the vertices
    of the mesh. *)
Definition renamed (us : list nat) (f : face) : face := let '(a, b, c) := f in (nth a us 0%nat, nth b us 0%nat, nth c us 0%nat).
(** The mesh holds the vertices [us] of the user and exactly the good triangles, in their order. *)
Record mesh_of (ta : tri_array) (e : R) (us : list nat) (m : tmesh) : Prop :=
  { mo_sorted : StronglySorted lt us
  ; mo_vertices : map Some (tm_vertices m) = map (nth_error (ta_vertices ta)) us
  ; mo_faces : kept (good ta e) (ta_faces ta) (map (renamed us) (tm_faces m))
  ; mo_inside : forall f j, In f (tm_faces m) -> corner f j -> (j < length us)%nat }.

(** ** Normals *)

(** The angle between two vectors. *)
Definition angle_of (a b : vec3) (t : R) : Prop := 0 <= t <= PI /\ vlen a * vlen b * cos t = vdot a b.
(** [n] is the vector of length one with the direction of [d]. *)
Definition unit_of (d n : vec3) : Prop := vlen n = 1 /\ exists k, 0 < k /\ d = vscale k n.
(** The corners of a triangle at the vertex [j], as the vertex with the next and the previous ones. *)
Definition corners_at (vs : list vec3) (j : nat) (f : face) : list (vec3 * vec3 * vec3) :=
  let '(a, b, c) := f in
  let p := nth a vs vzero in let q := nth b vs vzero in let r := nth c vs vzero in
  (if Nat.eqb a j then [(p, q, r)] else []) ++ (if Nat.eqb b j then [(q, r, p)] else []) ++ (if Nat.eqb c j then [(r, p, q)] else []).
Definition all_corners (m : tmesh) (j : nat) : list (vec3 * vec3 * vec3) := concat (map (corners_at (tm_vertices m) j) (tm_faces m)).
(** [s] is the sum of the unit normals of the triangles at the corners, each times its angle. *)
Inductive weighted : list (vec3 * vec3 * vec3) -> vec3 -> Prop :=
| weighted_nil : weighted [] vzero
| weighted_cons p q r l t n s : angle_of (vsub q p) (vsub r p) t -> unit_of (vcross (vsub q p) (vsub r p)) n -> weighted l s ->
    weighted ((p, q, r) :: l) (vadd (vscale t n) s).

(** ** Queries *)

(** The smallest box around three points, and two boxes with a common point. *)
Definition box_of (p q r : vec3) (b : box3) : Prop := tight_bounds (triangle_set p q r) b.
Definition boxes_meet (a b : box3) : Prop := exists x, in_bounds a x /\ in_bounds b x.
(** The triangle [i] of a shape: the triangle of the mesh, its coordinates multiplied by the scale. *)
Definition scaled_triangle (m : tmesh) (k : vec3) (i : nat) (p q r : vec3) : Prop :=
  exists f p0 q0 r0, nth_error (tm_faces m) i = Some f /\ points_of (tm_vertices m) f p0 q0 r0 /\ p = vmul p0 k /\ q = vmul q0 k /\ r = vmul r0 k.
Definition positive_scale (k : vec3) : Prop := 0 < vx k /\ 0 < vy k /\ 0 < vz k.
Definition nonzero_scale (k : vec3) : Prop := vx k <> 0 /\ vy k <> 0 /\ vz k <> 0.
(** The surface of a shape. *)
Definition surface (m : tmesh) (k : vec3) (x : vec3) : Prop := exists i p q r, scaled_triangle m k i p q r /\ triangle_set p q r x.

(** The normals of the triangle [i]: those of the mesh, which a change of scale turns as it turns planes. *)
Definition normal_image (k n n' : vec3) : Prop := n <> vzero -> unit_of (V3 (vx n / vx k) (vy n / vy k) (vz n / vz k)) n'.
Definition scaled_normals (m : tmesh) (k : vec3) (i : nat) (n1 n2 n3 : vec3) : Prop :=
  exists f m1 m2 m3, nth_error (tm_faces m) i = Some f /\ points_of (tm_normals m) f m1 m2 m3 /\
    normal_image k m1 n1 /\ normal_image k m2 n2 /\ normal_image k m3 n3.
(** The ray does not run along a coordinate plane through a vertex of the triangle. *)
Definition off_plane (coordinate : vec3 -> R) (y : ray) (p q r : vec3) : Prop :=
  coordinate (ray_p1 y) <> coordinate (ray_p2 y) \/
  coordinate (ray_p1 y) <> coordinate p /\ coordinate (ray_p1 y) <> coordinate q /\ coordinate (ray_p1 y) <> coordinate r.
Definition off_planes (y : ray) (p q r : vec3) : Prop := off_plane vx y p q r /\ off_plane vy y p q r /\ off_plane vz y p q r.
(** The ray comes from the side of the triangle that is not tested. *)
Definition turned_away (d : side) (p q r : vec3) (y : ray) : Prop :=
  let k := vdot (vsub (ray_p2 y) (ray_p1 y)) (vcross (vsub q p) (vsub r p)) in
  match d with Front => 0 <= k | Back => k <= 0 | FrontAndBack => False end.
