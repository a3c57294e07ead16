(** What a contact between two rounded shapes should say.  A sphere is a point and a capsule is a segment, made thick by a radius. *)
From Coq Require Import Reals List.
From Verif Require Import VecModel GeomSpec ShapeSpec NarrowModel.
Local Open Scope R_scope.

(** The inner points of a sphere and of a capsule of half height [hh], in world space. *)
Definition sphere_core (t : transform) (p : vec3) : Prop := p = t_pos t.
Definition capsule_core (hh : R) (t : transform) : vec3 -> Prop := moved t (on_segment (V3 0 (- hh) 0) (V3 0 hh 0)).
(** The inner segment of a capsule as a vector in world space. *)
Definition capsule_axis (hh : R) (t : transform) : vec3 := vsub (tr_point t (V3 0 hh 0)) (tr_point t (V3 0 (- hh) 0)).
(** Two thick shapes overlap: two inner points are closer than the sum of the radii. *)
Definition overlap (C1 C2 : vec3 -> Prop) (r1 r2 : R) : Prop := exists p q, C1 p /\ C2 q /\ dist p q < r1 + r2.
(** The points of a thick shape without its surface: two shapes with positive radii overlap exactly when they share such a point
    (C47_overlap). *)
Definition thick (C : vec3 -> Prop) (r : R) (p : vec3) : Prop := exists q, C q /\ dist p q < r.
(** A translated point. *)
Definition shifted (p n : vec3) (k : R) : vec3 := V3 (vx p + k * vx n) (vy p + k * vy n) (vz p + k * vz n).
(** A geometrically consistent contact: the normal [n] has length one, the depth is positive, the points [w1], [w2] lie on the
    two surfaces in the direction of the normal, they differ by (up to [tol]) depth times normal, and moving the second shape by
    depth times normal ends the overlap. *)
Record good_contact (tol : R) (C1 C2 : vec3 -> Prop) (r1 r2 : R) (n : vec3) (depth : R) (w1 w2 : vec3) : Prop := {
  gc_unit : vlen n = 1;
  gc_depth : 0 < depth;
  gc_surface1 : exists q, C1 q /\ w1 = shifted q n r1;
  gc_surface2 : exists q, C2 q /\ w2 = shifted q n (- r2);
  gc_apart : exists k, w1 = shifted w2 n k /\ k <= depth <= k + tol;
  gc_separates : forall p q, C1 p -> C2 q -> r1 + r2 <= dist p (shifted q n depth)
}.
(** The same for a contact as reported. *)
Definition contact_ok (tol : R) (C1 C2 : vec3 -> Prop) (r1 r2 : R) (t1 t2 : transform) (c : contact) : Prop :=
  good_contact tol C1 C2 r1 r2 (c_normal c) (c_depth c) (tr_point t1 (c_local1 c)) (tr_point t2 (c_local2 c)).
